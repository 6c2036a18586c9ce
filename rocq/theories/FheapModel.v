(** Model of src/mln_fheap.c and include/mln_fheap.h (the inline variants of the header have the same bodies). Nodes live in a memory indexed by
    addresses. A ring of siblings is the list of its members starting at the one the ring pointer names; mln_fheap_add_child puts the new member in
    front of the named one, which is the end of that list. A key is held in the node (the code holds a pointer to it and mln_fheap_decrease_key
    copies into it). [lt a b] is [!cmp(a, b)]. [None] is undefined behaviour: an index past the array, a node that is not where a pointer says. *)
Require Import List Arith NArith Bool.
Require Import Verif.Base.
Import ListNotations.
Open Scope N_scope.

Section Fheap.
Variable K : Type.
Variable lt : K -> K -> bool.

(** include/mln_fheap.h:46-55; [left] and [right] are the place in the ring. *)
Record node := mkN { nkey : K; nparent : option N; nkids : list N; ndeg : N; nmark : bool }.
(** include/mln_fheap.h:57-68 *)
Record heap := mkH { roots : list N; hmin : option N; hnum : N; mem : N -> option node }.
Definition put (m : N -> option node) (a : N) (n : node) : N -> option node := fun b => if b =? a then Some n else m b.
Definition w64 (x : N) : N := x mod 2 ^ 64.
(** FH_LGN, include/mln_fheap.h:13-17 *)
Definition lgn : nat := 65.

(** include/mln_fheap.h:87-105 mln_fheap_del_child; 73-85 mln_fheap_add_child is appending. *)
Definition ring_del (l : list N) (a : N) : option (list N) := if existsb (N.eqb a) l then Some (filter (fun b => negb (b =? a)) l) else None.
(** node->right *)
Fixpoint after (l : list N) (a : N) : option (option N) :=
  match l with [] => None | b :: r => if b =? a then Some (hd_error r) else after r a end.
Definition right_of (l : list N) (a : N) : option N := x <- after l a ;; match x with Some b => Some b | None => hd_error l end.

(** mln_fheap_node_new, src/mln_fheap.c:133-151, and mln_fheap_node_init, include/mln_fheap.h:294-304 *)
Definition node_new (k : K) : node := mkN k None [] 0 false.
(** src/mln_fheap.c:68-78 mln_fheap_insert, of a node that node_new or node_init has filled in *)
Definition insert (h : heap) (a : N) (k : K) : option heap :=
  let m := put (mem h) a (node_new k) in
  mn <- (match hmin h with None => Some a | Some b => n <- m b ;; Some (if lt k (nkey n) then a else b) end) ;;
  Some (mkH (roots h ++ [a]) (Some mn) (w64 (hnum h + 1)) m).
(** The same for a node as it is. *)
Definition insert_again (h : heap) (a : N) : option heap :=
  n <- mem h a ;;
  let m := put (mem h) a (mkN (nkey n) None (nkids n) (ndeg n) (nmark n)) in
  mn <- (match hmin h with None => Some a | Some b => nb <- m b ;; Some (if lt (nkey n) (nkey nb) then a else b) end) ;;
  Some (mkH (roots h ++ [a]) (Some mn) (w64 (hnum h + 1)) m).

(** include/mln_fheap.h:107-116 mln_fheap_link *)
Definition link (rs : list N) (m : N -> option node) (y x : N) : option (list N * (N -> option node)) :=
  rs <- ring_del rs y ;;
  nx <- m x ;;
  let m := put m x (mkN (nkey nx) (nparent nx) (nkids nx ++ [y]) (w64 (ndeg nx + 1)) (nmark nx)) in
  ny <- m y ;;
  Some (rs, put m y (mkN (nkey ny) (Some x) (nkids ny) (ndeg ny) false)).

(** include/mln_fheap.h:118-160 mln_fheap_consolidate. The inner loop: *)
Fixpoint merge (fuel : nat) (rs : list N) (m : N -> option node) (arr : list (option N)) (x w : N) (d : nat)
  : option (list N * (N -> option node) * list (option N) * N) :=
  match fuel with
  | O => None
  | S f =>
      s <- nth_error arr d ;;
      match s with
      | None => Some (rs, m, upd arr d (Some x), w)
      | Some y =>
          nx <- m x ;;
          ny <- m y ;;
          let '(x, y) := if lt (nkey ny) (nkey nx) then (y, x) else (x, y) in
          w <- (if y =? w then right_of rs w else Some w) ;;
          r <- link rs m y x ;;
          let '(rs, m) := r in merge f rs m (upd arr d None) x w (S d)
      end
  end.
(** The outer loop; [mark] is whether the first root has been taken. *)
Fixpoint scan (fuel : nat) (rs : list N) (m : N -> option node) (arr : list (option N)) (w : N) (mark : bool)
  : option (list N * (N -> option node) * list (option N)) :=
  match fuel with
  | O => None
  | S f =>
      first <- hd_error rs ;;
      if (w =? first) && mark then Some (rs, m, arr)
      else
        let mark := if w =? first then true else mark in
        let x := w in
        w <- right_of rs w ;;
        n <- m x ;;
        r <- merge (S lgn) rs m arr x w (N.to_nat (ndeg n)) ;;
        let '(rs, m, arr, w) := r in scan f rs m arr w mark
  end.
(** The second loop: the occupied slots become the new ring, and the least of them the minimum. *)
Fixpoint gather (arr : list (option N)) (rs : list N) (m : N -> option node) (new : list N) (mn : option N)
  : option (list N * (N -> option node) * option N) :=
  match arr with
  | [] => Some (new, m, mn)
  | None :: r => gather r rs m new mn
  | Some a :: r =>
      rs <- ring_del rs a ;;
      n <- m a ;;
      let m := put m a (mkN (nkey n) None (nkids n) (ndeg n) (nmark n)) in
      mn <- (match mn with None => Some a | Some b => nb <- m b ;; Some (if lt (nkey n) (nkey nb) then a else b) end) ;;
      gather r rs m (new ++ [a]) (Some mn)
  end.
Definition consolidate (rs : list N) (m : N -> option node) : option (list N * (N -> option node) * option N) :=
  first <- hd_error rs ;;
  r <- scan (S (length rs)) rs m (repeat None lgn) first false ;;
  let '(rs, m, arr) := r in gather arr rs m [] None.

(** src/mln_fheap.c:80-99 mln_fheap_extract_min. The loop that makes the children roots: *)
Fixpoint spill (fuel : nat) (rs : list N) (m : N -> option node) (z : N) : option (list N * (N -> option node)) :=
  n <- m z ;;
  match nkids n with
  | [] => Some (rs, m)
  | c :: r =>
      match fuel with
      | O => None
      | S f =>
          let m := put m z (mkN (nkey n) (nparent n) r (ndeg n) (nmark n)) in
          nc <- m c ;;
          spill f (rs ++ [c]) (put m c (mkN (nkey nc) None (nkids nc) (ndeg nc) (nmark nc))) z
      end
  end.
Definition extract_min (h : heap) : option (heap * option (N * K)) :=
  match hmin h with
  | None => Some (h, None)
  | Some z =>
      n <- mem h z ;;
      r <- spill (length (nkids n)) (roots h) (mem h) z ;;
      let '(rs, m) := r in
      right <- right_of rs z ;;
      rs <- ring_del rs z ;;
      r <- (if z =? right then Some (rs, m, None) else consolidate rs m) ;;
      let '(rs, m, mn) := r in
      Some (mkH rs mn (w64 (hnum h + (2 ^ 64 - 1))) m, Some (z, nkey n))
  end.

(** include/mln_fheap.h:162-171 mln_fheap_cut *)
Definition cut (rs : list N) (m : N -> option node) (x y : N) : option (list N * (N -> option node)) :=
  ny <- m y ;;
  kids <- ring_del (nkids ny) x ;;
  let m := put m y (mkN (nkey ny) (nparent ny) kids (w64 (ndeg ny + (2 ^ 64 - 1))) (nmark ny)) in
  nx <- m x ;;
  Some (rs ++ [x], put m x (mkN (nkey nx) None (nkids nx) (ndeg nx) false)).
(** include/mln_fheap.h:173-187 mln_fheap_cascading_cut *)
Fixpoint cascade (fuel : nat) (rs : list N) (m : N -> option node) (y : N) : option (list N * (N -> option node)) :=
  match fuel with
  | O => None
  | S f =>
      n <- m y ;;
      match nparent n with
      | None => Some (rs, m)
      | Some z =>
          if nmark n then r <- cut rs m y z ;; let '(rs, m) := r in cascade f rs m z
          else Some (rs, put m y (mkN (nkey n) (nparent n) (nkids n) (ndeg n) true))
      end
  end.
(** src/mln_fheap.c:101-114 mln_fheap_decrease_key; the fuel of the upward walk is the number of nodes. *)
Definition decrease_key (h : heap) (a : N) (k : K) : option (heap * bool) :=
  n <- mem h a ;;
  if lt (nkey n) k then Some (h, false)
  else
    let m := put (mem h) a (mkN k (nparent n) (nkids n) (ndeg n) (nmark n)) in
    r <- (match nparent n with
          | None => Some (roots h, m)
          | Some y =>
              ny <- m y ;;
              if lt k (nkey ny) then r <- cut (roots h) m a y ;; let '(rs, m) := r in cascade (N.to_nat (hnum h)) rs m y
              else Some (roots h, m)
          end) ;;
    let '(rs, m) := r in
    b <- hmin h ;;
    nb <- m b ;;
    Some (mkH rs (Some (if negb (a =? b) && lt k (nkey nb) then a else b)) (hnum h) m, true).
(** src/mln_fheap.c:116-119 mln_fheap_delete *)
Definition delete (min_val : K) (h : heap) (a : N) : option heap :=
  r <- decrease_key h a min_val ;; r <- extract_min (fst r) ;; Some (fst r).
(** src/mln_fheap.c:121-130 mln_fheap_free: the nodes in the order of their release *)
Fixpoint free_loop (fuel : nat) (h : heap) : option (heap * list (N * K)) :=
  r <- extract_min h ;;
  match snd r with
  | None => Some (h, [])
  | Some p => match fuel with O => None | S f => r <- free_loop f (fst r) ;; Some (fst r, p :: snd r) end
  end.
(** mln_fheap_minimum, include/mln_fheap.h:313 *)
Definition minimum (h : heap) : option (option (N * K)) :=
  match hmin h with None => Some None | Some a => n <- mem h a ;; Some (Some (a, nkey n)) end.

(** src/mln_fheap.c:16-44 mln_fheap_new, 46-66 mln_fheap_new_fast *)
Definition heap_new : heap := mkH [] None 0 (fun _ => None).
Inductive op := FInsert (a : N) (k : K) | FExtract | FMinimum | FDecrease (a : N) (k : K) | FDelete (a : N) | FFree | FCount.
Inductive out := ODone | OGot (p : option (N * K)) | OStatus (ok : bool) | OAll (l : list (N * K)) | ONum (n : N).
Definition step (min_val : K) (h : heap) (o : op) : option (heap * out) :=
  match o with
  | FInsert a k => h <- insert h a k ;; Some (h, ODone)
  | FExtract => r <- extract_min h ;; Some (fst r, OGot (snd r))
  | FMinimum => r <- minimum h ;; Some (h, OGot r)
  | FDecrease a k => r <- decrease_key h a k ;; Some (fst r, OStatus (snd r))
  | FDelete a => h <- delete min_val h a ;; Some (h, ODone)
  | FFree => r <- free_loop (N.to_nat (hnum h)) h ;; Some (fst r, OAll (snd r))
  | FCount => Some (h, ONum (hnum h))
  end.
Fixpoint run (min_val : K) (h : heap) (ops : list op) : option (heap * list out) :=
  match ops with
  | [] => Some (h, [])
  | o :: r => x <- step min_val h o ;; y <- run min_val (fst x) r ;; Some (fst y, snd x :: snd y)
  end.
End Fheap.
Arguments mkN {K}. Arguments nkey {K}. Arguments nparent {K}. Arguments nkids {K}. Arguments ndeg {K}. Arguments nmark {K}.
Arguments mkH {K}. Arguments roots {K}. Arguments hmin {K}. Arguments hnum {K}. Arguments mem {K}. Arguments put {K}. Arguments node_new {K}.
Arguments insert {K}. Arguments insert_again {K}. Arguments link {K}. Arguments merge {K}. Arguments scan {K}. Arguments gather {K}. Arguments consolidate {K}. Arguments spill {K}.
Arguments extract_min {K}. Arguments cut {K}. Arguments cascade {K}. Arguments decrease_key {K}. Arguments delete {K}. Arguments free_loop {K}. Arguments minimum {K}.
Arguments heap_new {K}. Arguments FInsert {K}. Arguments FExtract {K}. Arguments FMinimum {K}. Arguments FDecrease {K}. Arguments FDelete {K}. Arguments FFree {K}. Arguments FCount {K}.
Arguments ODone {K}. Arguments OGot {K}. Arguments OStatus {K}. Arguments OAll {K}. Arguments ONum {K}. Arguments step {K}. Arguments run {K}.

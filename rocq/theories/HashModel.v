(** Model of src/mln_hash.c. Entries live in a memory indexed by addresses; the bucket array is a list of chains and the chain used for
    iteration is a list, both of addresses (that the link macros keep such sequences is the theorem of ChainProps.v). A pointer to a bucket is a
    pair of a table number and an index: every new table has a new number, and going through a pointer into a released table is [None]
    (undefined behaviour), as is an index outside the table and exhausted fuel. The allocator of entries always answers with an unused
    address or NULL; [t1], [t2], [t3] in the operations say whether the allocations for growing, for shrinking and for the entry succeed.
    The pool variants call the pool functions in place of malloc and free and are otherwise the same code, except that they clear the new
    bucket array before testing whether there is one: with a pool, [t1] and [t2] must be true. *)
Require Import List Arith NArith Bool.
Require Import Verif.Base.
Import ListNotations.
Open Scope N_scope.

Definition u32 (x : N) : N := x mod 2 ^ 32.
(** include/mln_hash.h:24-29 *)
Inductive flag := FNone | FVal | FKey | FKV.

Section Hash.
Variables K V : Type.
(** The handlers: [hash len k] (the handler reads the length from the table) and [cmp]; [prime] is mln_prime_generate. *)
Variable hash : N -> K -> N.
Variable cmp : K -> K -> bool.
Variable prime : N -> N.

(** include/mln_hash.h:44-55 *)
Record entry := mkE { ekey : K; eval : V; emgr : N * N; erem : bool; eflag : flag }.
(** include/mln_hash.h:62-79 *)
Record table := mkT { len : N; thr : N; nr : N; expandable : bool; use_prime : bool; gen : N; tbl : list (list N); iter : list N;
                      cur : option N; mem : N -> option entry; next : N }.
Definition set_mem (m : N -> option entry) (a : N) (e : option entry) : N -> option entry := fun b => if b =? a then e else m b.

Definition with_mem (h : table) (m : N -> option entry) : table :=
  mkT (len h) (thr h) (nr h) (expandable h) (use_prime h) (gen h) (tbl h) (iter h) (cur h) m (next h).
Definition with_cur (h : table) (c : option N) : table :=
  mkT (len h) (thr h) (nr h) (expandable h) (use_prime h) (gen h) (tbl h) (iter h) c (mem h) (next h).

(** src/mln_hash.c:30-64 mln_hash_init, and the same code in 66-99, 101-148, 150-184. *)
Definition hash_init (base : N) (expand calc_prime : bool) (t1 : bool) : option table :=
  let l := if calc_prime then prime (u32 base) else base in
  if negb t1 || (l =? 0) then None
  else Some (mkT l (u32 (if calc_prime then prime (u32 (2 * l)) else 2 * l)) 0 expand calc_prime 0 (repeat [] (N.to_nat l)) [] None (fun _ => None) 0).

(** &(h->tbl[index]) for the bucket of a key, and the chain it holds. *)
Definition bucket (h : table) (k : K) : N := u32 (hash (len h) k).
Definition chain_at (h : table) (i : N) : option (list N) := nth_error (tbl h) (N.to_nat i).
(** The loop over a chain: the first entry that the handler calls equal. *)
Fixpoint find_in (m : N -> option entry) (k : K) (c : list N) : option (option (N * entry)) :=
  match c with
  | [] => Some None
  | a :: r => e <- m a ;; if cmp k (ekey e) then Some (Some (a, e)) else find_in m k r
  end.
Definition find_key (h : table) (k : K) : option (option (N * entry)) := c <- chain_at h (bucket h k) ;; find_in (mem h) k c.

(** Removing an address from a chain that holds it. *)
Definition drop (a : N) (l : list N) : list N := filter (fun b => negb (b =? a)) l.
Definition chain_drop (a : N) (l : list N) : option (list N) := if existsb (N.eqb a) l then Some (drop a l) else None.
(** mln_hash_entry_chain_add and mln_hash_entry_chain_del through a bucket pointer. *)
Definition add_at (h : table) (p : N * N) (a : N) : option (list (list N)) :=
  if fst p =? gen h then c <- chain_at h (snd p) ;; Some (upd (tbl h) (N.to_nat (snd p)) (c ++ [a])) else None.
Definition del_at (h : table) (p : N * N) (a : N) : option (list (list N)) :=
  if fst p =? gen h then c <- chain_at h (snd p) ;; c <- chain_drop a c ;; Some (upd (tbl h) (N.to_nat (snd p)) c) else None.

(** src/mln_hash.c:319-336 mln_move_hash_entry; [h] already has the new length. *)
Fixpoint move_chain (l : N) (m : N -> option entry) (t : list (list N)) (c : list N) : option (list (list N)) :=
  match c with
  | [] => Some t
  | a :: r =>
      e <- m a ;;
      let i := N.to_nat (u32 (hash l (ekey e))) in
      b <- nth_error t i ;;
      move_chain l m (upd t i (b ++ [a])) r
  end.
Fixpoint move_all (l : N) (m : N -> option entry) (t : list (list N)) (old : list (list N)) : option (list (list N)) :=
  match old with [] => Some t | c :: r => t <- move_chain l m t c ;; move_all l m t r end.
Definition move (h : table) (l t : N) : option table :=
  b <- move_all l (mem h) (repeat [] (N.to_nat l)) (firstn (N.to_nat (u32 (len h))) (tbl h)) ;;
  Some (mkT l t (nr h) (expandable h) (use_prime h) (gen h + 1) b (iter h) (cur h) (mem h) (next h)).
(** src/mln_hash.c:275-295 mln_hash_reduce, 297-317 mln_hash_expand *)
Definition reduce (t : bool) (h : table) : option table :=
  let l := if use_prime h then prime (thr h / 4) else thr h / 4 in
  let l := if l =? 0 then 1 else l in
  if t then move h l (u32 (if use_prime h then prime (thr h / 2) else thr h / 2)) else Some h.
Definition expand (t : bool) (h : table) : option table :=
  let l := if use_prime h then prime (u32 (2 * u32 (len h))) else u32 (2 * u32 (len h) + (2 ^ 32 - 1)) in
  if t then move h l (u32 (if use_prime h then prime (u32 (2 * thr h)) else u32 (2 * thr h + (2 ^ 32 - 1)))) else Some h.
(** src/mln_hash.c:244-249, 260-265 *)
Definition resize (t1 t2 : bool) (h : table) : option table :=
  h <- (if expandable h && (thr h <? nr h) then expand t1 h else Some h) ;;
  if expandable h && (nr h <=? thr h / 8) then reduce t2 h else Some h.

(** src/mln_hash.c:250-254, 268-272: a new entry through the bucket pointer [p]. *)
Definition add_entry (h : table) (p : N * N) (t3 : bool) (k : K) (v : V) : option (table * bool) :=
  if t3 then
    let a := next h in
    b <- add_at h p a ;;
    Some (mkT (len h) (thr h) (u32 (nr h + 1)) (expandable h) (use_prime h) (gen h) b (iter h ++ [a]) (cur h)
            (set_mem (mem h) a (Some (mkE k v p false FNone))) (a + 1), true)
  else Some (h, false).
(** src/mln_hash.c:258-273 mln_hash_insert *)
Definition insert (h : table) (k : K) (v : V) (t1 t2 t3 : bool) : option (table * bool) :=
  h <- resize t1 t2 h ;; add_entry h (gen h, bucket h k) t3 k v.
(** src/mln_hash.c:222-256 mln_hash_update: status, and what *key and *val are afterwards ([None] = both NULL). *)
Definition update (h : table) (k : K) (v : V) (t1 t2 t3 : bool) : option (table * bool * option (K * V)) :=
  let p := (gen h, bucket h k) in
  r <- find_key h k ;;
  match r with
  | Some (a, e) => Some (with_mem h (set_mem (mem h) a (Some (mkE k v (emgr e) false (eflag e)))), true, Some (ekey e, eval e))
  | None =>
      h <- resize t1 t2 h ;;
      r <- add_entry h p t3 k v ;;
      let '(h, ok) := r in Some (h, ok, if ok : bool then None else Some (k, v))
  end.

(** src/mln_hash.c:338-351 mln_hash_change_value *)
Definition change_value (h : table) (k : K) (v : V) : option (table * option V) :=
  r <- find_key h k ;;
  match r with
  | Some (a, e) => Some (with_mem h (set_mem (mem h) a (Some (mkE (ekey e) v (emgr e) (erem e) (eflag e)))), Some (eval e))
  | None => Some (h, None)
  end.
(** src/mln_hash.c:353-362 mln_hash_search *)
Definition search (h : table) (k : K) : option (option V) :=
  r <- find_key h k ;;
  Some (match r with Some (_, e) => if erem e then None else Some (eval e) | None => None end).
(** src/mln_hash.c:364-388 mln_hash_search_iterator. The context is a place in the chain of the key: the addresses from there on, empty for
    NULL. Result: the value, and the new context. *)
Fixpoint find_from (m : N -> option entry) (k : K) (c : list N) : option (option (V * list N)) :=
  match c with
  | [] => Some None
  | a :: r => e <- m a ;; if cmp k (ekey e) then Some (if erem e then None else Some (eval e, r)) else find_from m k r
  end.
Definition search_iterator (h : table) (k : K) (ctx : list N) : option (option (V * list N)) :=
  c <- (match ctx with [] => chain_at h (bucket h k) | _ => Some ctx end) ;; find_from (mem h) k c.
(** The caller's loop: call, stop when NULL is returned or when the context is NULL. *)
Fixpoint search_all (fuel : nat) (h : table) (k : K) (ctx : list N) : option (list V) :=
  match fuel with
  | O => None
  | S f =>
      r <- search_iterator h k ctx ;;
      match r with
      | None => Some []
      | Some (v, []) => Some [v]
      | Some (v, ctx) => l <- search_all f h k ctx ;; Some (v :: l)
      end
  end.
(** The caller's loop that only stops when NULL is returned. *)
Fixpoint search_until_null (fuel : nat) (h : table) (k : K) (ctx : list N) : option (list V) :=
  match fuel with
  | O => None
  | S f =>
      r <- search_iterator h k ctx ;;
      match r with None => Some [] | Some (v, ctx) => l <- search_until_null f h k ctx ;; Some (v :: l) end
  end.
(** src/mln_hash.c:490-498 mln_hash_key_exist *)
Fixpoint exist_in (m : N -> option entry) (k : K) (c : list N) : option bool :=
  match c with
  | [] => Some false
  | a :: r => e <- m a ;; if negb (erem e) && cmp k (ekey e) then Some true else exist_in m k r
  end.
Definition key_exist (h : table) (k : K) : option bool := c <- chain_at h (bucket h k) ;; exist_in (mem h) k c.

(** src/mln_hash.c:436-460 mln_hash_entry_free: what the two handlers are called with. *)
Definition freed (f : flag) (e : entry) : list (K + V) :=
  match f with FNone => [] | FVal => [inr (eval e)] | FKey => [inl (ekey e)] | FKV => [inr (eval e); inl (ekey e)] end.
(** Unlinking an entry through a bucket pointer and releasing it. *)
Definition release (h : table) (p : N * N) (a : N) (e : entry) (f : flag) : option (table * list (K + V)) :=
  b <- del_at h p a ;;
  it <- chain_drop a (iter h) ;;
  Some (mkT (len h) (thr h) (u32 (nr h + (2 ^ 32 - 1))) (expandable h) (use_prime h) (gen h) b it (cur h) (set_mem (mem h) a None) (next h), freed f e).
(** src/mln_hash.c:390-413 mln_hash_remove *)
Definition remove (h : table) (k : K) (f : flag) : option (table * list (K + V)) :=
  r <- find_key h k ;;
  match r with
  | None => Some (h, [])
  | Some (a, e) =>
      if match cur h with Some c => c =? a | None => false end
      then Some (with_mem h (set_mem (mem h) a (Some (mkE (ekey e) (eval e) (emgr e) true f))), [])
      else release h (gen h, bucket h k) a e f
  end.

(** src/mln_hash.c:462-488 mln_hash_iterate. At each call the handler may remove the key it is given ([Some flag]) and then stop the iteration. *)
Fixpoint after (l : list N) (a : N) : option (option N) :=
  match l with [] => None | b :: r => if b =? a then Some (match r with [] => None | c :: _ => Some c end) else after r a end.
Definition plan := list (option flag * bool).
Fixpoint iterate_loop (fuel : nat) (h : table) (he : option N) (p : plan) : option (table * list (K * V) * list (K + V) * bool) :=
  match he with
  | None => Some (with_cur h None, [], [], true)
  | Some a =>
      match fuel with
      | O => None
      | S f =>
          let h := with_cur h (Some a) in
          e <- mem h a ;;
          he <- after (iter h) a ;;
          if erem e then iterate_loop f h he p
          else
            let '(what, stop) := match p with [] => (None, false) | x :: _ => x end in
            r <- (match what with Some fl => remove h (ekey e) fl | None => Some (h, []) end) ;;
            let '(h, fr1) := r in
            if stop : bool then Some (with_cur h None, [(ekey e, eval e)], fr1, false)
            else
              e' <- mem h a ;;
              r <- (if erem e' then release h (emgr e') a e' (eflag e') else Some (h, [])) ;;
              let '(h, fr2) := r in
              r <- iterate_loop f h he (tl p) ;;
              let '(h, seen, fr3, ok) := r in
              Some (h, (ekey e, eval e) :: seen, fr1 ++ fr2 ++ fr3, ok)
      end
  end.
Definition iterate (h : table) (p : plan) := iterate_loop (length (iter h)) h (hd_error (iter h)) p.

(** src/mln_hash.c:500-515 mln_hash_reset; 186-201 mln_hash_destroy and 203-220 mln_hash_free visit the entries in the same order. *)
Fixpoint free_all (m : N -> option entry) (f : flag) (l : list N) : option (list (K + V)) :=
  match l with [] => Some [] | a :: r => e <- m a ;; r <- free_all m f r ;; Some (freed f e ++ r) end.
Definition reset (h : table) (f : flag) : option (table * list (K + V)) :=
  fr <- free_all (mem h) f (concat (tbl h)) ;;
  Some (mkT (len h) (thr h) 0 (expandable h) (use_prime h) (gen h) (map (fun _ => []) (tbl h)) [] None (fun _ => None) (next h), fr).

(** Programs. *)
Inductive op := HInsert (k : K) (v : V) (t1 t2 t3 : bool) | HUpdate (k : K) (v : V) (t1 t2 t3 : bool) | HSearch (k : K) | HSearchAll (k : K)
  | HChange (k : K) (v : V) | HExist (k : K) | HCount | HRemove (k : K) (f : flag) | HIterate (p : plan) | HReset (f : flag).
Inductive out := OStatus (ok : bool) | OUpdate (ok : bool) (old : option (K * V)) | OVal (v : option V) | OVals (l : list V) | OBool (b : bool)
  | ONum (n : N) | OFreed (l : list (K + V)) | OIter (seen : list (K * V)) (fr : list (K + V)) (ok : bool) | OFreedAll (l : list (K + V)).
Definition step (h : table) (o : op) : option (table * out) :=
  match o with
  | HInsert k v t1 t2 t3 => r <- insert h k v t1 t2 t3 ;; Some (fst r, OStatus (snd r))
  | HUpdate k v t1 t2 t3 => r <- update h k v t1 t2 t3 ;; Some (fst (fst r), OUpdate (snd (fst r)) (snd r))
  | HSearch k => r <- search h k ;; Some (h, OVal r)
  | HSearchAll k => r <- search_all (S (length (iter h))) h k [] ;; Some (h, OVals r)
  | HChange k v => r <- change_value h k v ;; Some (fst r, OVal (snd r))
  | HExist k => r <- key_exist h k ;; Some (h, OBool r)
  | HCount => Some (h, ONum (nr h))
  | HRemove k f => r <- remove h k f ;; Some (fst r, OFreed (snd r))
  | HIterate p => r <- iterate h p ;; let '(h, seen, fr, ok) := r in Some (h, OIter seen fr ok)
  | HReset f => r <- reset h f ;; Some (fst r, OFreedAll (snd r))
  end.
Fixpoint run (h : table) (ops : list op) : option (table * list out) :=
  match ops with
  | [] => Some (h, [])
  | o :: r => x <- step h o ;; y <- run (fst x) r ;; Some (fst y, snd x :: snd y)
  end.
End Hash.

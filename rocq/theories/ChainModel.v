(** Model of the doubly linked chain macros of include/mln_utils.h:112-142 (instantiated by mln_list, mln_stack and
    most containers), of src/mln_list.c and of src/mln_stack.c.
    Memory is a finite-or-not map from addresses to nodes; reading or writing an address that holds no node, or going
    through NULL, is [None] (undefined behaviour). *)
Require Import List Arith NArith Bool.
Require Import Verif.Base.
Import ListNotations.

Section Chain.
Variable D : Type.   (* the part of the node beside the two links *)

Record cell := mkC { dat : D; prv : option N; nxt : option N }.
Definition heap := N -> option cell.
Definition hset (h : heap) (a : N) (c : cell) : heap := fun b => if N.eqb b a then Some c else h b.
Definition hdel (h : heap) (a : N) : heap := fun b => if N.eqb b a then None else h b.

(** p->next_ptr = v and p->prev_ptr = v *)
Definition set_next (h : heap) (a : N) (v : option N) : option heap :=
  c <- h a ;; Some (hset h a (mkC (dat c) (prv c) v)).
Definition set_prev (h : heap) (a : N) (v : option N) : option heap :=
  c <- h a ;; Some (hset h a (mkC (dat c) v (nxt c))).
Definition ptr_eqb (p : option N) (a : N) : bool := match p with Some b => N.eqb b a | None => false end.

(** include/mln_utils.h:113-122 prefix_chain_add: heap, head and tail afterwards. *)
Definition chain_add (h : heap) (hd tl : option N) (n : N) : option (heap * option N * option N) :=
  h <- set_next h n None ;;
  r <- (match hd with
        | None => Some (h, Some n)
        | Some _ => t <- tl ;; h <- set_next h t (Some n) ;; Some (h, hd)
        end) ;;
  h <- set_prev (fst r) n tl ;;
  Some (h, snd r, Some n).

(** include/mln_utils.h:124-142 prefix_chain_del. *)
Definition chain_del (h : heap) (hd tl : option N) (n : N) : option (heap * option N * option N) :=
  r <- (if ptr_eqb hd n then
          if ptr_eqb tl n then Some (h, None, None)
          else
            c <- h n ;;
            x <- nxt c ;;
            h <- set_prev h x None ;;
            Some (h, Some x, tl)
        else if ptr_eqb tl n then
            c <- h n ;;
            x <- prv c ;;
            h <- set_next h x None ;;
            Some (h, hd, Some x)
        else
            c <- h n ;;
            p <- prv c ;;
            h <- set_next h p (nxt c) ;;
            c <- h n ;;
            x <- nxt c ;;
            h <- set_prev h x (prv c) ;;
            Some (h, hd, tl)) ;;
  let '(h, hd, tl) := r in
  h <- set_next h n None ;;
  h <- set_prev h n None ;;
  Some (h, hd, tl).

(** A walk along the next (prev) links from [p], as user code iterates: [None] if a link leads to an address that holds
    no node, or if the walk needs more than [fuel] steps (a cycle). *)
Fixpoint walk_next (fuel : nat) (h : heap) (p : option N) : option (list (N * D)) :=
  match p with
  | None => Some []
  | Some a =>
      match fuel with
      | O => None
      | S f => c <- h a ;; r <- walk_next f h (nxt c) ;; Some ((a, dat c) :: r)
      end
  end.
Fixpoint walk_prev (fuel : nat) (h : heap) (p : option N) : option (list (N * D)) :=
  match p with
  | None => Some []
  | Some a =>
      match fuel with
      | O => None
      | S f => c <- h a ;; r <- walk_prev f h (prv c) ;; Some ((a, dat c) :: r)
      end
  end.

(** ** Intrusive lists, src/mln_list.c *)

(** A memory with any number of sentinels; the sentinel of list [s] keeps the head and the tail
    (include/mln_list.h:17-18). *)
Record lists := mkL { mem : heap; sent : nat -> option N * option N }.
Definition set_sent (f : nat -> option N * option N) (s : nat) (v : option N * option N) :=
  fun s' => if s' =? s then v else f s'.

(** src/mln_list.c:12-14 mln_list_add, 16-18 mln_list_remove. *)
Definition list_add (st : lists) (s : nat) (n : N) : option lists :=
  r <- chain_add (mem st) (fst (sent st s)) (snd (sent st s)) n ;;
  let '(h, hd, tl) := r in Some (mkL h (set_sent (sent st) s (hd, tl))).
Definition list_remove (st : lists) (s : nat) (n : N) : option lists :=
  r <- chain_del (mem st) (fst (sent st s)) (snd (sent st s)) n ;;
  let '(h, hd, tl) := r in Some (mkL h (set_sent (sent st) s (hd, tl))).

Inductive lop := LAdd (s : nat) (n : N) | LRemove (s : nat) (n : N).
Definition l_step (st : lists) (o : lop) : option lists :=
  match o with LAdd s n => list_add st s n | LRemove s n => list_remove st s n end.
Fixpoint l_run (st : lists) (ops : list lop) : option lists :=
  match ops with [] => Some st | o :: t => st' <- l_step st o ;; l_run st' t end.

(** ** Stack, src/mln_stack.c *)

(** include/mln_stack.h:20-28 mln_stack_t (the two free-list fields are never used). *)
Record stack := mkSt { bottom : option N; top : option N; nr_node : N }.
Definition st_empty : stack := mkSt None None 0%N.

(** src/mln_stack.c:85-92 mln_stack_push with 24-31 mln_stack_node_init; [a] is what malloc returned. *)
Definition st_push (h : heap) (st : stack) (a : option N) (v : D) : option (heap * stack * bool) :=
  match a with
  | None => Some (h, st, false)
  | Some a =>
      let h := hset h a (mkC v None None) in
      r <- chain_add h (bottom st) (top st) a ;;
      let '(h, b, t) := r in
      Some (h, mkSt b t (nr_node st + 1)%N, true)
  end.

(** src/mln_stack.c:97-105 mln_stack_pop: the node is freed, its data returned ([None] = NULL). *)
Definition st_pop (h : heap) (st : stack) : option (heap * stack * option D) :=
  match top st with
  | None => Some (h, st, None)
  | Some a =>
      r <- chain_del h (bottom st) (top st) a ;;
      let '(h, b, t) := r in
      c <- h a ;;
      Some (hdel h a, mkSt b t (nr_node st - 1)%N, Some (dat c))
  end.

(** include/mln_stack.h:31 mln_stack_top. *)
Definition st_top (h : heap) (st : stack) : option (option D) :=
  match top st with None => Some None | Some a => c <- h a ;; Some (Some (dat c)) end.
(** include/mln_stack.h:30 mln_stack_empty. *)
Definition st_is_empty (st : stack) : bool := N.eqb (nr_node st) 0.

(** src/mln_stack.c:139-148 mln_stack_iterate with a handler that never fails: data from the top down. *)
Definition st_iterate (fuel : nat) (h : heap) (st : stack) : option (list D) :=
  l <- walk_prev fuel h (top st) ;; Some (map snd l).

(** src/mln_stack.c:60-70 mln_stack_destroy: heap without the nodes, and the data handed to the free handler. *)
Fixpoint st_destroy (fuel : nat) (h : heap) (st : stack) : option (heap * list D) :=
  match bottom st with
  | None => Some (h, [])
  | Some a =>
      match fuel with
      | O => None
      | S f =>
          r <- chain_del h (bottom st) (top st) a ;;
          let '(h, b, t) := r in
          c <- h a ;;
          r <- st_destroy f (hdel h a) (mkSt b t (nr_node st)) ;;
          Some (fst r, dat c :: snd r)
      end
  end.

(** src/mln_stack.c:111-134 mln_stack_dup. [copy] is the copy handler ([fun v => Some v] when it is NULL; [None] when
    the handler fails); [alloc k] is what the k-th malloc of this call returns, which may depend on the memory.
    Result: heap, new stack (None = NULL) and the data handed to the free handler (the partial copy when a step fails).
    The stack header itself lives outside the node memory. *)
Fixpoint st_dup_loop (fuel0 fuel : nat) (copy : D -> option D) (alloc : nat -> heap -> option N) (k : nat) (h : heap)
    (scan : option N) (ns : stack) : option (heap * option stack * list D) :=
  match scan with
  | None => Some (h, Some ns, [])
  | Some a =>
      match fuel with
      | O => None
      | S f =>
          c <- h a ;;
          match copy (dat c) with
          | None => r <- st_destroy fuel0 h ns ;; Some (fst r, None, snd r)
          | Some v =>
              r <- st_push h ns (alloc k h) v ;;
              let '(h, ns, ok) := r in
              if ok : bool then
                c <- h a ;; st_dup_loop fuel0 f copy alloc (S k) h (nxt c) ns
              else r <- st_destroy fuel0 h ns ;; Some (fst r, None, v :: snd r)
          end
      end
  end.
Definition st_dup (fuel : nat) (copy : D -> option D) (alloc : nat -> heap -> option N) (h : heap) (st : stack) :
    option (heap * option stack * list D) :=
  match alloc 0 h with
  | None => Some (h, None, [])
  | Some _ => st_dup_loop fuel fuel copy alloc 1 h (bottom st) st_empty
  end.

(** Programs over any number of stacks sharing one memory. [fuel_of h st] below is the node count, an upper bound for
    every loop; [copy] as above; [alloc i k] answers the k-th malloc of the i-th operation. *)
Inductive sop := SPush (i : nat) (v : D) | SPop (i : nat) | STop (i : nat) | SEmpty (i : nat) | SCount (i : nat)
  | SIterate (i : nat) | SDup (i j : nat) | SDestroy (i : nat).
Inductive sout := SoStatus (ok : bool) | SoPtr (v : option D) | SoBool (b : bool) | SoNum (n : N) | SoList (l : list D)
  | SoDup (ok : bool) (freed : list D) | SoFreed (l : list D).
Record world := mkW { wmem : heap; stk : nat -> stack }.
Definition set_stk (f : nat -> stack) (i : nat) (v : stack) := fun i' => if i' =? i then v else f i'.

Definition s_step (copy : D -> option D) (alloc : nat -> heap -> option N) (w : world) (o : sop) : option (world * sout) :=
  let st i := stk w i in
  let fuel i := N.to_nat (nr_node (st i)) in
  match o with
  | SPush i v =>
      r <- st_push (wmem w) (st i) (alloc 0 (wmem w)) v ;;
      let '(h, s, ok) := r in Some (mkW h (set_stk (stk w) i s), SoStatus ok)
  | SPop i =>
      r <- st_pop (wmem w) (st i) ;;
      let '(h, s, v) := r in Some (mkW h (set_stk (stk w) i s), SoPtr v)
  | STop i => v <- st_top (wmem w) (st i) ;; Some (w, SoPtr v)
  | SEmpty i => Some (w, SoBool (st_is_empty (st i)))
  | SCount i => Some (w, SoNum (nr_node (st i)))
  | SIterate i => l <- st_iterate (fuel i) (wmem w) (st i) ;; Some (w, SoList l)
  | SDup i j =>
      r <- st_dup (fuel i) copy alloc (wmem w) (st i) ;;
      let '(h, s, freed) := r in
      match s with
      | Some s => Some (mkW h (set_stk (stk w) j s), SoDup true freed)
      | None => Some (mkW h (stk w), SoDup false freed)
      end
  | SDestroy i =>
      r <- st_destroy (fuel i) (wmem w) (st i) ;;
      Some (mkW (fst r) (set_stk (stk w) i st_empty), SoFreed (snd r))
  end.
Fixpoint s_run (copy : D -> option D) (alloc : nat -> nat -> heap -> option N) (n : nat) (w : world) (ops : list sop) :
    option (world * list sout) :=
  match ops with
  | [] => Some (w, [])
  | o :: t =>
      r <- s_step copy (alloc n) w o ;;
      s <- s_run copy alloc (S n) (fst r) t ;;
      Some (fst s, snd r :: snd s)
  end.

End Chain.

Arguments mkC {D}. Arguments dat {D}. Arguments prv {D}. Arguments nxt {D}.
Arguments hset {D}. Arguments hdel {D}. Arguments set_next {D}. Arguments set_prev {D}.
Arguments chain_add {D}. Arguments chain_del {D}. Arguments walk_next {D}. Arguments walk_prev {D}.
Arguments mkL {D}. Arguments mem {D}. Arguments sent {D}. Arguments list_add {D}. Arguments list_remove {D}.
Arguments l_step {D}. Arguments l_run {D}.
Arguments st_push {D}. Arguments st_pop {D}. Arguments st_top {D}. Arguments st_iterate {D}.
Arguments st_destroy {D}. Arguments st_dup_loop {D}. Arguments st_dup {D}.
Arguments SPush {D}. Arguments SPop {D}. Arguments STop {D}. Arguments SEmpty {D}. Arguments SCount {D}.
Arguments SIterate {D}. Arguments SDup {D}. Arguments SDestroy {D}.
Arguments SoStatus {D}. Arguments SoPtr {D}. Arguments SoBool {D}. Arguments SoNum {D}. Arguments SoList {D}.
Arguments SoDup {D}. Arguments SoFreed {D}.
Arguments mkW {D}. Arguments wmem {D}. Arguments stk {D}. Arguments s_step {D}. Arguments s_run {D}.

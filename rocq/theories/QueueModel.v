(** Model of src/mln_queue.c: a ring of [qlen] slots.
    Pointers into the ring are slot indices; an access outside the ring is [None] (undefined behaviour). *)
Require Import Verif.Base.
Require Import List Arith NArith Lia Bool.
Import ListNotations.

Section Queue.
Variable V : Type.      (* void *, the stored pointers *)
Variable null : V.      (* NULL *)

(** include/mln_queue.h:16-23 mln_queue_t; qhead/tail are offsets from [queue].
    The free handler is not a field: the freed pointers are part of the result. *)
Record queue := mkQ { slots : list V; qhead : nat; qtail : nat; qlen : nat; nr : nat }.

(** src/mln_queue.c:8-23 mln_queue_init (allocation assumed to succeed). *)
Definition q_init (n : nat) : queue := mkQ (repeat null n) 0 0 n 0.

(** src/mln_queue.c:40-47 mln_queue_append: result -1/0. *)
Definition q_append (q : queue) (v : V) : option (queue * bool) :=
  if qlen q <=? nr q then Some (q, false)
  else
    sl <- store (slots q) (qtail q) v ;;
    let t := S (qtail q) in
    let t := if t =? qlen q then 0 else t in
    Some (mkQ sl (qhead q) t (qlen q) (S (nr q)), true).

(** src/mln_queue.c:49-52 mln_queue_get. *)
Definition q_get (q : queue) : option V :=
  if nr q =? 0 then Some null else nth_error (slots q) (qhead q).

(** src/mln_queue.c:54-59 mln_queue_remove. *)
Definition q_remove (q : queue) : queue :=
  if nr q =? 0 then q
  else
    let h := S (qhead q) in
    let h := if qlen q <=? h then 0 else h in
    mkQ (slots q) h (qtail q) (qlen q) (nr q - 1).

(** src/mln_queue.c:61-67 mln_queue_search. *)
Definition q_search (q : queue) (index : nat) : option V :=
  if nr q <=? index then Some null
  else
    let p := qhead q + index in
    let p := if qlen q <=? p then p - qlen q else p in
    nth_error (slots q) p.

(** src/mln_queue.c:69-84 mln_queue_iterate: the pointers handed to the handler, in order,
    when the handler never returns a negative value. *)
Fixpoint q_iter_loop (n : nat) (q : queue) (scan : nat) : option (list V) :=
  match n with
  | 0 => Some []
  | S n' =>
      v <- nth_error (slots q) scan ;;
      let s := S scan in
      let s := if qlen q <=? s then 0 else s in
      r <- q_iter_loop n' q s ;;
      Some (v :: r)
  end.
Definition q_iterate (q : queue) : option (list V) := q_iter_loop (nr q) q (qhead q).

(** src/mln_queue.c:25-38 mln_queue_destroy: the pointers handed to the free handler, in order. *)
Fixpoint q_destroy_loop (n : nat) (q : queue) : option (list V) :=
  match n with
  | 0 => Some []
  | S n' =>
      v <- nth_error (slots q) (qhead q) ;;
      let h := S (qhead q) in
      let h := if qlen q <=? h then 0 else h in
      r <- q_destroy_loop n' (mkQ (slots q) h (qtail q) (qlen q) (nr q - 1)) ;;
      Some (v :: r)
  end.
Definition q_destroy (q : queue) : option (list V) := q_destroy_loop (nr q) q.

(** src/mln_queue.c:86-105 mln_queue_free_index: lines 94-100 are the loop; the second component is the
    pointer handed to the free handler. *)
Fixpoint q_fi_loop (n : nat) (len : nat) (sl : list V) (pos next : nat) : option (list V * nat) :=
  match n with
  | 0 => Some (sl, pos)
  | S n' =>
      let next := S next in
      let next := if len <=? next then 0 else next in
      v <- nth_error sl next ;;
      sl <- store sl pos v ;;
      let pos := S pos in
      let pos := if len <=? pos then 0 else pos in
      q_fi_loop n' len sl pos next
  end.
Definition q_free_index (q : queue) (index : nat) : option (queue * option V) :=
  if nr q <=? index then Some (q, None)
  else
    let pos := qhead q + index in
    let pos := if qlen q <=? pos then pos - qlen q else pos in
    save <- nth_error (slots q) pos ;;
    r <- q_fi_loop (nr q - index) (qlen q) (slots q) pos pos ;;
    let '(sl, pos') := r in
    Some (mkQ sl (qhead q) pos' (qlen q) (nr q - 1), Some save).

(** The API as one step function. *)
Inductive qop := QAppend (v : V) | QGet | QRemove | QSearch (i : nat) | QIterate | QCount | QFreeIndex (i : nat).
Inductive qout := OStatus (ok : bool) | OPtr (v : V) | OUnit | OList (l : list V) | ONum (n : nat) | OFreed (v : option V).

Definition q_step (q : queue) (o : qop) : option (queue * qout) :=
  match o with
  | QAppend v => r <- q_append q v ;; Some (fst r, OStatus (snd r))
  | QGet => v <- q_get q ;; Some (q, OPtr v)
  | QRemove => Some (q_remove q, OUnit)
  | QSearch i => v <- q_search q i ;; Some (q, OPtr v)
  | QIterate => l <- q_iterate q ;; Some (q, OList l)
  | QCount => Some (q, ONum (nr q))
  | QFreeIndex i => r <- q_free_index q i ;; Some (fst r, OFreed (snd r))
  end.

Fixpoint q_run (q : queue) (ops : list qop) : option (queue * list qout) :=
  match ops with
  | [] => Some (q, [])
  | o :: t =>
      r <- q_step q o ;;
      s <- q_run (fst r) t ;;
      Some (fst s, snd r :: snd s)
  end.
End Queue.
Arguments mkQ {V}. Arguments slots {V}. Arguments qhead {V}. Arguments qtail {V}.
Arguments qlen {V}. Arguments nr {V}. Arguments q_init {V}. Arguments q_append {V}. Arguments q_get {V}.
Arguments q_remove {V}. Arguments q_search {V}. Arguments q_iterate {V}. Arguments q_iter_loop {V}.
Arguments q_destroy {V}. Arguments q_destroy_loop {V}. Arguments q_fi_loop {V}. Arguments q_free_index {V}.
Arguments QAppend {V}. Arguments QGet {V}. Arguments QRemove {V}. Arguments QSearch {V}. Arguments QIterate {V}.
Arguments QCount {V}. Arguments QFreeIndex {V}. Arguments OStatus {V}. Arguments OPtr {V}. Arguments OUnit {V}.
Arguments OList {V}. Arguments ONum {V}. Arguments OFreed {V}. Arguments q_step {V}. Arguments q_run {V}.

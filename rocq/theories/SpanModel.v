(** * Spans: the tree of the calls made (src/mln_span.c, include/mln_span.h)

    A span is a node on the heap, linked to its parent, its neighbours and its
    first and last child.  [None] in a result: a null or dangling pointer is
    used, or an assertion fails.

    Simplifications: an allocation never fails, and gives an address not used
    before; a time is one number, the microseconds of [gettimeofday]; the file
    and the function of a span are one piece of data, the site; the nodes of the
    stack are a list of spans, the top first.  (The pointer to the bottom node
    only tells when the last one is popped.) *)

From Coq Require Import List Arith NArith.
From Verif Require Import Base.
Import ListNotations.

Section Span.

Variable site : Type.

(** include/mln_span.h:17-28: [mln_span_t] *)
Record node : Type := mkN {
  n_site : site;
  n_begin : N;
  n_end : N;
  n_head : option nat;
  n_tail : option nat;
  n_parent : option nat;
  n_prev : option nat;
  n_next : option nat
}.

Definition heap := nat -> option node.

Definition put (h : heap) (i : nat) (n : option node) : heap :=
  fun j => if Nat.eqb j i then n else h j.

Definition set_end (n : node) (t : N) : node :=
  mkN (n_site n) (n_begin n) t (n_head n) (n_tail n) (n_parent n) (n_prev n) (n_next n).
Definition set_subs (n : node) (hd tl : option nat) : node :=
  mkN (n_site n) (n_begin n) (n_end n) hd tl (n_parent n) (n_prev n) (n_next n).
Definition set_prev (n : node) (p : option nat) : node :=
  mkN (n_site n) (n_begin n) (n_end n) (n_head n) (n_tail n) (n_parent n) p (n_next n).
Definition set_next (n : node) (p : option nat) : node :=
  mkN (n_site n) (n_begin n) (n_end n) (n_head n) (n_tail n) (n_parent n) (n_prev n) p.

(** src/mln_span.c:19-30: [mln_span_chain_add] on the children of [p]. *)
Definition chain_add (h : heap) (p i : nat) : option heap :=
  n <- h i ;;
  let h := put h i (Some (set_next (set_prev n None) None)) in
  np <- h p ;;
  match n_head np with
  | None => Some (put h p (Some (set_subs np (Some i) (Some i))))
  | Some _ =>
      tl <- n_tail np ;;
      nt <- h tl ;;
      let h := put h tl (Some (set_next nt (Some i))) in
      n <- h i ;;
      let h := put h i (Some (set_prev n (Some tl))) in
      np <- h p ;;
      Some (put h p (Some (set_subs np (n_head np) (Some i))))
  end.

(** src/mln_span.c:32-52: [mln_span_chain_del] on the children of [p]. *)
Definition chain_del (h : heap) (p i : nat) : option heap :=
  np <- h p ;;
  n <- h i ;;
  let is_head := match n_head np with Some x => Nat.eqb x i | None => false end in
  let is_tail := match n_tail np with Some x => Nat.eqb x i | None => false end in
  h <- (if is_head then
          if is_tail then Some (put h p (Some (set_subs np None None)))
          else
            j <- n_next n ;;
            nj <- h j ;;
            Some (put (put h p (Some (set_subs np (Some j) (n_tail np)))) j (Some (set_prev nj None)))
        else if is_tail then
          j <- n_prev n ;;
          nj <- h j ;;
          Some (put (put h p (Some (set_subs np (n_head np) (Some j)))) j (Some (set_next nj None)))
        else
          j <- n_prev n ;;
          nj <- h j ;;
          let h := put h j (Some (set_next nj (n_next n))) in
          k <- n_next n ;;
          nk <- h k ;;
          Some (put h k (Some (set_prev nk (n_prev n))))) ;;
  n <- h i ;;
  Some (put h i (Some (set_next (set_prev n None) None))).

(** The globals of src/mln_span.c:9-11, and the next address. *)
Record state : Type := mkS {
  s_heap : heap;
  s_fresh : nat;
  s_stack : list nat;
  s_root : option nat
}.

(** include/mln_span.h:63-70: [mln_span_start] before its call of
    [mln_span_entry]. *)
Definition init : state := mkS (fun _ => None) 0 [] None.

(** src/mln_span.c:115-135: [mln_span_new] *)
Definition span_new (st : state) (parent : option nat) (s : site) : option (state * nat) :=
  let i := s_fresh st in
  let h := put (s_heap st) i (Some (mkN s 0 0 None None parent None None)) in
  h <- match parent with None => Some h | Some p => chain_add h p i end ;;
  Some (mkS h (S i) (s_stack st) (s_root st), i).

(** src/mln_span.c:148-169: [mln_span_entry].  [own]: the caller is the thread
    that is watched.  [t] is the time. *)
Definition span_entry (st : state) (own : bool) (s : site) (t : N) : option state :=
  if negb own then Some st
  else
    x <- span_new st (hd_error (s_stack st)) s ;;
    let (st, i) := (x : state * nat) in
    let root := match s_root st with None => Some i | Some r => Some r end in
    n <- s_heap st i ;;
    Some (mkS (put (s_heap st) i
                 (Some (mkN (n_site n) t (n_end n) (n_head n) (n_tail n) (n_parent n) (n_prev n) (n_next n))))
              (s_fresh st) (i :: s_stack st) root).

(** src/mln_span.c:171-184: [mln_span_exit] *)
Definition span_exit (st : state) (own : bool) (t : N) : option state :=
  if negb own then Some st
  else
    match s_stack st with
    | [] => None
    | i :: r =>
        n <- s_heap st i ;;
        Some (mkS (put (s_heap st) i (Some (set_end n t))) (s_fresh st) r (s_root st))
    end.

(** What the instrumented functions call. *)
Inductive event : Type :=
| Enter (own : bool) (s : site) (t : N)
| Leave (own : bool) (t : N).

Definition step (st : state) (e : event) : option state :=
  match e with
  | Enter own s t => span_entry st own s t
  | Leave own t => span_exit st own t
  end.

Fixpoint run (st : state) (es : list event) : option state :=
  match es with
  | [] => Some st
  | e :: es' => st' <- step st e ;; run st' es'
  end.

(** src/mln_span.c:186-196: [__mln_span_dump]: the calls of the callback.  The
    second function is the loop over the children, from [o] on. *)
Fixpoint dump (fuel : nat) (h : heap) (i level : nat) : option (list (nat * node)) :=
  match fuel with
  | O => None
  | S fuel' =>
      n <- h i ;;
      r <- dump_chain fuel' h (n_head n) (S level) ;;
      Some ((level, n) :: r)
  end
with dump_chain (fuel : nat) (h : heap) (o : option nat) (level : nat) : option (list (nat * node)) :=
  match fuel with
  | O => None
  | S fuel' =>
      match o with
      | None => Some []
      | Some i =>
          a <- dump fuel' h i level ;;
          n <- h i ;;
          b <- dump_chain fuel' h (n_next n) level ;;
          Some (a ++ b)
      end
  end.

(** src/mln_span.c:198-201: [mln_span_dump] *)
Definition span_dump (fuel : nat) (st : state) : option (list (nat * node)) :=
  match s_root st with
  | None => Some []
  | Some r => dump fuel (s_heap st) r 0
  end.

(** src/mln_span.c:137-146: [mln_span_free]; the second function is its loop.
    A span that is freed is taken off the heap. *)
Fixpoint free (fuel : nat) (h : heap) (i : nat) : option heap :=
  match fuel with
  | O => None
  | S fuel' =>
      h <- free_subs fuel' h i ;;
      _ <- h i ;;
      Some (put h i None)
  end
with free_subs (fuel : nat) (h : heap) (i : nat) : option heap :=
  match fuel with
  | O => None
  | S fuel' =>
      n <- h i ;;
      match n_head n with
      | None => Some h
      | Some j =>
          h <- chain_del h i j ;;
          h <- free fuel' h j ;;
          free_subs fuel' h i
      end
  end.

(** include/mln_span.h:81-84: [mln_span_release] *)
Definition span_release (fuel : nat) (st : state) : option state :=
  h <- match s_root st with None => Some (s_heap st) | Some r => free fuel (s_heap st) r end ;;
  Some (mkS h (s_fresh st) (s_stack st) None).

(** include/mln_span.h:74-79: [mln_span_stop]: the last exit, and the stack
    given up. *)
Definition span_stop (st : state) (own : bool) (t : N) : option state :=
  st <- span_exit st own t ;;
  Some (mkS (s_heap st) (s_fresh st) [] (s_root st)).

(** include/mln_span.h:92-96: [mln_span_time_cost], unsigned 64-bit. *)
Definition time_cost (n : node) : N := (n_end n + (2 ^ 64 - n_begin n mod 2 ^ 64)) mod 2 ^ 64.

End Span.

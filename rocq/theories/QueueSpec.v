(** Independent specification of a bounded FIFO: just a list of at most [cap] pointers. *)
Require Import Verif.Base Verif.QueueModel.
Require Import List Arith.
Import ListNotations.

Section Spec.
Variable V : Type.
Variable null : V.

Definition spec_step (cap : nat) (l : list V) (o : qop V) : list V * qout V :=
  match o with
  | QAppend v => if length l <? cap then (l ++ [v], OStatus true) else (l, OStatus false)
  | QGet => (l, OPtr (hd null l))
  | QRemove => (tl l, OUnit)
  | QSearch i => (l, OPtr (nth i l null))
  | QIterate => (l, OList l)
  | QCount => (l, ONum (length l))
  | QFreeIndex i => (remove_nth i l, OFreed (nth_error l i))
  end.

Fixpoint spec_run (cap : nat) (l : list V) (ops : list (qop V)) : list V * list (qout V) :=
  match ops with
  | [] => (l, [])
  | o :: t =>
      let '(l1, x) := spec_step cap l o in
      let '(l2, xs) := spec_run cap l1 t in
      (l2, x :: xs)
  end.
(** Histories that do not use removal by index / do not append. *)
Definition no_free_index (o : qop V) : Prop := match o with QFreeIndex _ => False | _ => True end.
Definition no_append (o : qop V) : Prop := match o with QAppend _ => False | _ => True end.
End Spec.
Arguments no_free_index {V}. Arguments no_append {V}.
Arguments spec_step {V}. Arguments spec_run {V}.

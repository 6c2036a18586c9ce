(** What a dynamic array is: a list; new elements are uninitialised ([None]) until written. *)
Require Import List NArith.
Require Import Verif.Base Verif.ArrayModel.
Import ListNotations.
Open Scope N_scope.

Section S.
Context {V : Type}.
(** An element never written since it was pushed may hold any value. *)
Definition agree (v w : option V) : Prop := match v with Some _ => w = v | None => True end.
Definition len (l : list (option V)) : N := N.of_nat (length l).
Inductive a_spec (l : list (option V)) : aop V -> aout V -> list (option V) -> Prop :=
| as_push : a_spec l APush (AoPtr (Some (len l))) (l ++ [None])
| as_push_fail : a_spec l APush (AoPtr None) l
| as_pushn n : a_spec l (APushN n) (AoPtr (Some (len l))) (l ++ repeat None (N.to_nat n))
| as_pushn_fail n : a_spec l (APushN n) (AoPtr None) l
| as_write i v : i < len l -> a_spec l (AWrite i v) AoUnit (upd l (N.to_nat i) (Some v))
| as_write_out i v : len l <= i -> a_spec l (AWrite i v) AoUnit l
| as_read i v w : nth_error l (N.to_nat i) = Some v -> agree v w -> a_spec l (ARead i) (AoVal w) l
| as_read_out i : len l <= i -> a_spec l (ARead i) AoUnit l
| as_pop t v w : l = t ++ [v] -> agree v w -> a_spec l APop (AoFreed (Some w)) t
| as_pop_empty : l = [] -> a_spec l APop (AoFreed None) l
| as_count : a_spec l ACount (AoNum (len l)) l
| as_reset m : Forall2 agree l m -> a_spec l AReset (AoAll m) [].
Inductive a_spec_run : list (option V) -> list (aop V) -> list (aout V) -> Prop :=
| ar_nil l : a_spec_run l [] []
| ar_cons l o out l' ops outs : a_spec l o out l' -> a_spec_run l' ops outs -> a_spec_run l (o :: ops) (out :: outs).
(** Elements a program may ever have asked for. *)
Fixpoint requested (ops : list (aop V)) : N :=
  match ops with
  | [] => 0
  | APush :: t => 1 + requested t
  | APushN n :: t => n + requested t
  | _ :: t => requested t
  end.
End S.

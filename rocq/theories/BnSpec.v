(** Specification of the big numbers: what integer a structure stands for, and which structures are well formed. *)
Require Import List Arith NArith ZArith.
Require Import Verif.BnModel.
Import ListNotations.
Open Scope N_scope.

(** Little-endian value of 32-bit limbs. *)
Fixpoint limbs_value (l : list N) : N :=
  match l with [] => 0 | x :: t => x + 2 ^ 32 * limbs_value t end.

(** The magnitude and the integer a structure stands for. *)
Definition mag (b : bn) : N := limbs_value (dat b).
Definition value (b : bn) : Z := if neg b then (- Z.of_N (mag b))%Z else Z.of_N (mag b).

(** Well formed: 257 limbs, each below 2^32, none but zeros from [len] on, and no leading zero limb. *)
Definition wf (b : bn) : Prop :=
  length (dat b) = 257%nat /\ Forall (fun x => x < 2 ^ 32) (dat b) /\ (len b <= 257)%nat /\
  (forall i, (len b <= i)%nat -> nth i (dat b) 0 = 0) /\
  (len b = 0%nat \/ nth (len b - 1) (dat b) 0 <> 0).

(** The magnitudes that fit: 8224 bits. *)
Definition fits (n : N) : Prop := n < 2 ^ 8224.

(** Sign of a comparison result. *)
Definition zcmp (a b : Z) : Z := match (a ?= b)%Z with Lt => -1 | Eq => 0 | Gt => 1 end.

(** The structure for a small number, for examples. *)
Definition of_limbs (neg : bool) (l : list N) : bn := mkBn neg (length l) (l ++ repeat 0 (257 - length l)).

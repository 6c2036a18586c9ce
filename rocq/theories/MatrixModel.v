(** * Matrices of numbers (src/mln_matrix.c)

    The elements are [double] in the code and exact rationals here: rounding is
    not modelled.  The algorithms are those of [GaussModel]. *)

From Coq Require Import List Arith QArith Qcanon Qcabs.
From Verif Require Import GaussModel.
Import ListNotations.

(** include/mln_matrix.h:10-15: [mln_matrix_t].  The flag [is_ref], which says
    who owns the array, is not modelled. *)
Record mat : Type := mkMat {
  m_row : nat;
  m_col : nat;
  m_data : list (list Qc)
}.

(** src/mln_matrix.c:98: [fabs(y) > fabs(x)] *)
Definition qc_better (y x : Qc) : bool :=
  match (Qcabs y ?= Qcabs x)%Qc with Gt => true | _ => false end.

(** src/mln_matrix.c:114: [fabs(x) < 1e-6] *)
Definition qc_tiny (x : Qc) : bool :=
  match (Qcabs x ?= Q2Qc (1 # 1000000))%Qc with Lt => true | _ => false end.

(** src/mln_matrix.c:34-65: [mln_matrix_mul]; [None] is NULL. *)
Definition matrix_mul (m1 m2 : mat) : option mat :=
  if negb (Nat.eqb (m_col m1) (m_row m2)) then None
  else Some (mkMat (m_row m1) (m_col m2)
               (mat_mul Qc 0%Qc Qcplus Qcmult (m_data m1) (m_data m2) (m_col m2))).

(** src/mln_matrix.c:67-137: [mln_matrix_inverse] on a matrix other than NULL.
    The first result is the argument after the call, which the elimination
    works on in place. *)
Definition matrix_inverse (a : mat) : mat * option mat :=
  if negb (Nat.eqb (m_row a) (m_col a)) then (a, None)
  else
    let r := invert Qc 0%Qc 1%Qc Qcminus Qcmult Qcdiv qc_better qc_tiny (m_row a) (m_data a) in
    (mkMat (m_row a) (m_col a) (fst r),
     match snd r with
     | Some d => Some (mkMat (m_row a) (m_col a) d)
     | None => None
     end).

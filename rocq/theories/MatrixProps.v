(** * Products and inverses of matrices *)

From Coq Require Import List Arith QArith Qcanon Qcabs Lia Ring_theory.
From Verif Require Import GaussModel GaussSpec GaussProofs MatrixModel.
Import ListNotations.

(** A matrix whose array has the announced shape. *)
Definition well_formed (a : mat) : Prop := shape Qc (m_data a) (m_row a) (m_col a).

Notation qsum := (sum Qc 0%Qc Qcplus).
Notation qentry := (entry Qc 0%Qc).

Lemma qc_div_mul x y : Qcdiv x y = Qcmult x (Qcdiv 1%Qc y).
Proof. unfold Qcdiv. ring. Qed.

Lemma qc_div_one y : y <> 0%Qc -> Qcmult (Qcdiv 1%Qc y) y = 1%Qc.
Proof. intros H. field. exact H. Qed.

Lemma qc_tiny_ne x : qc_tiny x = false -> x <> 0%Qc.
Proof. intros H ->. discriminate H. Qed.

(** C39, first part: the product is the mathematical product ... *)
Theorem matrix_mul_product (a b : mat) :
  well_formed a -> well_formed b -> m_col a = m_row b ->
  exists p, matrix_mul a b = Some p /\ well_formed p /\
    m_row p = m_row a /\ m_col p = m_col b /\
    forall i j, (i < m_row a)%nat -> (j < m_col b)%nat ->
    qentry (m_data p) i j
    = qsum (m_col a) (fun k => qentry (m_data a) i k * qentry (m_data b) k j)%Qc.
Proof.
  intros Ha Hb E. unfold matrix_mul. rewrite E, Nat.eqb_refl. cbn [negb].
  eexists. split; [reflexivity|]. unfold well_formed in *. cbn [m_row m_col m_data].
  rewrite E in Ha.
  destruct (mat_mul_product Qc 0%Qc 1%Qc Qcplus Qcminus Qcmult Qcopp Qcrt _ _ _ _ _ Ha Hb) as [H1 H2].
  repeat split; try apply H1. exact H2.
Qed.
Print Assumptions matrix_mul_product.

(** ... and is refused exactly for mismatched shapes. *)
Theorem matrix_mul_refused (a b : mat) :
  matrix_mul a b = None <-> m_col a <> m_row b.
Proof.
  unfold matrix_mul. destruct (Nat.eqb_spec (m_col a) (m_row b)) as [E|E]; cbn [negb].
  - split; [discriminate|congruence].
  - split; [intros _; exact E|reflexivity].
Qed.
Print Assumptions matrix_mul_refused.

(** A returned inverse undoes the matrix it was computed from, on both sides. *)
Theorem matrix_inverse_correct (a a' d : mat) :
  well_formed a -> matrix_inverse a = (a', Some d) ->
  m_row a = m_col a /\ well_formed d /\ m_row d = m_row a /\ m_col d = m_row a /\
  (forall i j, (i < m_row a)%nat -> (j < m_row a)%nat ->
   qsum (m_row a) (fun k => qentry (m_data d) i k * qentry (m_data a) k j)%Qc
   = if Nat.eqb i j then 1%Qc else 0%Qc) /\
  (forall i j, (i < m_row a)%nat -> (j < m_row a)%nat ->
   qsum (m_row a) (fun k => qentry (m_data a) i k * qentry (m_data d) k j)%Qc
   = if Nat.eqb i j then 1%Qc else 0%Qc).
Proof.
  intros Ha E. unfold matrix_inverse in E.
  destruct (Nat.eqb_spec (m_row a) (m_col a)) as [Hsq|]; cbn [negb] in E; [|discriminate E].
  unfold well_formed in Ha. rewrite <- Hsq in Ha. cbv zeta in E.
  destruct (invert Qc 0%Qc 1%Qc Qcminus Qcmult Qcdiv qc_better qc_tiny (m_row a) (m_data a))
    as [o' [d'|]] eqn:Ei; cbn [fst snd] in E; [|discriminate E].
  apply (invert_correct Qc 0%Qc 1%Qc Qcplus Qcminus Qcmult Qcdiv Qcopp qc_better qc_tiny
           Qcrt qc_div_mul qc_div_one qc_tiny_ne) in Ei; [|exact Ha].
  injection E as _ <-. destruct Ei as (H1 & H2 & H3).
  unfold well_formed. cbn [m_row m_col m_data]. rewrite <- Hsq.
  exact (conj eq_refl (conj H1 (conj eq_refl (conj eq_refl (conj H2 H3))))).
Qed.
Print Assumptions matrix_inverse_correct.

(** Multiplying a returned inverse and an untouched copy of the matrix with the
    library's own product gives the identity. *)
Theorem matrix_inverse_product (a a' d : mat) :
  well_formed a -> matrix_inverse a = (a', Some d) ->
  exists p q, matrix_mul d a = Some p /\ matrix_mul a d = Some q /\
    is_identity Qc 0%Qc 1%Qc (m_data p) (m_row a) /\
    is_identity Qc 0%Qc 1%Qc (m_data q) (m_row a).
Proof.
  intros Ha E. destruct (matrix_inverse_correct a a' d Ha E) as (Hsq & Hd & Hr & Hc & L & R).
  destruct (matrix_mul_product d a Hd Ha ltac:(congruence)) as (p & Ep & Wp & Pr & Pc & Pe).
  destruct (matrix_mul_product a d Ha Hd ltac:(congruence)) as (q & Eq & Wq & Qr & Qcol & Qe).
  exists p, q. split; [exact Ep|]. split; [exact Eq|].
  unfold well_formed in Wp, Wq. rewrite Pr, Pc, Hr, <- Hsq in Wp.
  rewrite Qr, Qcol, Hc in Wq.
  split; (split; [assumption|]).
  - intros i j Hi Hj. rewrite Pe by congruence. rewrite Hc. apply L; assumption.
  - intros i j Hi Hj. rewrite Qe by congruence. rewrite <- Hsq. apply R; assumption.
Qed.
Print Assumptions matrix_inverse_product.

(** Singular and non-square matrices are refused. *)
Theorem matrix_singular_refused (a : mat) :
  well_formed a ->
  m_row a <> m_col a \/ singular Qc 0%Qc Qcplus Qcmult (m_data a) (m_row a) ->
  snd (matrix_inverse a) = None.
Proof.
  intros Ha H. unfold matrix_inverse.
  destruct (Nat.eqb_spec (m_row a) (m_col a)) as [Hsq|]; cbn [negb snd]; [|reflexivity].
  destruct H as [H|H]; [congruence|]. unfold well_formed in Ha. rewrite <- Hsq in Ha. cbv zeta.
  rewrite (invert_singular Qc 0%Qc 1%Qc Qcplus Qcminus Qcmult Qcdiv Qcopp qc_better qc_tiny
           Qcrt qc_div_mul qc_div_one qc_tiny_ne) by assumption.
  reflexivity.
Qed.
Print Assumptions matrix_singular_refused.

(** What a successful call leaves in its argument: the identity. *)
Theorem matrix_inverse_overwrites (a a' d : mat) :
  well_formed a -> matrix_inverse a = (a', Some d) ->
  is_identity Qc 0%Qc 1%Qc (m_data a') (m_row a).
Proof.
  intros Ha E. unfold matrix_inverse in E.
  destruct (Nat.eqb_spec (m_row a) (m_col a)) as [Hsq|]; cbn [negb] in E; [|discriminate E].
  unfold well_formed in Ha. rewrite <- Hsq in Ha. cbv zeta in E.
  destruct (invert Qc 0%Qc 1%Qc Qcminus Qcmult Qcdiv qc_better qc_tiny (m_row a) (m_data a))
    as [o' [d'|]] eqn:Ei; cbn [fst snd] in E; [|discriminate E].
  apply (invert_input Qc 0%Qc 1%Qc Qcplus Qcminus Qcmult Qcdiv Qcopp qc_better qc_tiny
           Qcrt qc_div_mul qc_div_one qc_tiny_ne) in Ei; [|exact Ha].
  injection E as <- _. exact Ei.
Qed.
Print Assumptions matrix_inverse_overwrites.

(** ** Cases *)

Definition q (z : Z) (p : positive) : Qc := Q2Qc (z # p).
Definition z (n : Z) : Qc := q n 1.

(** A matrix that needs an exchange of rows, with its inverse. *)
Definition ex_a : mat := mkMat 3 3 [[z 0; z 2; z 1]; [z 1; z 1; z 0]; [z 4; z 0; z 3]].
Definition ex_d : mat :=
  mkMat 3 3 [[q (-3) 10; q 6 10; q 1 10]; [q 3 10; q 4 10; q (-1) 10]; [q 4 10; q (-8) 10; q 2 10]].

Example ex_a_wf : well_formed ex_a.
Proof. split; [reflexivity|]. repeat constructor. Qed.

Definition qdata (m : mat) : list (list Q) := map (map this) (m_data m).

Example ex_inverse :
  option_map qdata (snd (matrix_inverse ex_a)) = Some (qdata ex_d).
Proof. vm_compute. reflexivity. Qed.

Example ex_product : option_map qdata (matrix_mul ex_a ex_d)
  = Some (map (map this) (ident Qc 0%Qc 1%Qc 3)).
Proof. vm_compute. reflexivity. Qed.

Example ex_product_shape :
  option_map qdata (matrix_mul (mkMat 1 3 [[z 1; z 2; z 3]]) (mkMat 3 2 [[z 1; z 2]; [z 3; z 4]; [z 5; z 6]]))
  = Some (((22 # 1) :: (28 # 1) :: nil) :: nil)%Q.
Proof. vm_compute. reflexivity. Qed.

(** A singular matrix: the third row is the sum of the others. *)
Definition ex_s : mat := mkMat 3 3 [[z 1; z 2; z 3]; [z 4; z 5; z 6]; [z 5; z 7; z 9]].

Example ex_singular : singular Qc 0%Qc Qcplus Qcmult (m_data ex_s) (m_row ex_s).
Proof.
  exists (fun k => match k with 0%nat => z 1 | 1%nat => z (-2) | _ => z 1 end). split.
  - intros i Hi. cbn in Hi.
    destruct i as [|[|[|i]]]; [| | |lia]; apply Qc_is_canon; vm_compute; reflexivity.
  - exists 0%nat. split; [cbn; lia|]. intros E. apply (f_equal this) in E. discriminate E.
Qed.

Example ex_singular_refused : snd (matrix_inverse ex_s) = None.
Proof. vm_compute. reflexivity. Qed.

(** ** What does not hold *)

(** Not every invertible matrix is inverted: a pivot below one millionth counts
    as zero, so the inverse of a small multiple of the identity is refused. *)
Theorem matrix_inverse_complete_refuted :
  exists a d, well_formed a /\ m_row a = m_col a /\
    is_inverse Qc 0%Qc 1%Qc Qcplus Qcmult (m_data a) d (m_row a) /\
    snd (matrix_inverse a) = None.
Proof.
  exists (mkMat 2 2 [[q 1 10000000; z 0]; [z 0; q 1 10000000]]),
         [[z 10000000; z 0]; [z 0; z 10000000]].
  split; [split; [reflexivity|repeat constructor]|].
  split; [reflexivity|].
  split; [|vm_compute; reflexivity].
  split; [split; [reflexivity|repeat constructor]|].
  cbn [m_row m_data].
  split; intros [|[|i]] [|[|j]] Hi Hj; try lia; apply Qc_is_canon; vm_compute; reflexivity.
Qed.
Print Assumptions matrix_inverse_complete_refuted.

(** The argument does not survive: after a successful call, the product of the
    returned inverse and the argument is not the identity. *)
Theorem matrix_inverse_keeps_argument_refuted :
  exists a a' d p, well_formed a /\ matrix_inverse a = (a', Some d) /\
    matrix_mul d a' = Some p /\
    ~ is_identity Qc 0%Qc 1%Qc (m_data p) (m_row a).
Proof.
  exists (mkMat 1 1 ((z 2 :: nil) :: nil)), (mkMat 1 1 (((z 2 / z 2)%Qc :: nil) :: nil)), (mkMat 1 1 (((1 / z 2)%Qc :: nil) :: nil)),
         (mkMat 1 1 (((0 + (1 / z 2) * (z 2 / z 2))%Qc :: nil) :: nil)).
  split; [split; [reflexivity|repeat constructor]|].
  split; [reflexivity|]. split; [reflexivity|].
  intros [_ H]. specialize (H 0%nat 0%nat ltac:(cbn; lia) ltac:(cbn; lia)).
  apply (f_equal this) in H. vm_compute in H. discriminate H.
Qed.
Print Assumptions matrix_inverse_keeps_argument_refuted.

(** Even a refused matrix is not left as it was. *)
Theorem matrix_refusal_keeps_argument_refuted :
  exists a, well_formed a /\ snd (matrix_inverse a) = None /\
    map (map this) (m_data (fst (matrix_inverse a))) <> map (map this) (m_data a).
Proof.
  exists (mkMat 2 2 [[z 1; z 2]; [z 2; z 4]]).
  split; [split; [reflexivity|repeat constructor]|].
  split; [vm_compute; reflexivity|]. vm_compute. discriminate.
Qed.
Print Assumptions matrix_refusal_keeps_argument_refuted.

(** Integer-level statements of division and shifts, from the limb-level lemmas. *)
Require Import List Arith NArith ZArith Lia Bool.
Require Import ZifyBool ZifyNat ZifyN.
Require Import Verif.Base Verif.BnModel Verif.BnSpec Verif.BnLimbProofs Verif.BnAddProofs Verif.BnMulProofs Verif.BnDivProofs Verif.BnShiftProofs.
Import ListNotations.
Open Scope N_scope.

Lemma div_magnitudes d s : wf d -> wf s -> mag s <> 0 ->
  (len d < 257)%nat \/ nth (len s - 1) (dat s) 0 < 2 ^ 31 \/ (len s < 2)%nat ->
  exists r q, bn_div d s = Some (Some (r, q)) /\ wf r /\ wf q /\ mag q = mag d / mag s /\ mag r = mag d mod mag s /\
    (neg q = xorb (neg d) (neg s) \/ mag q = 0) /\ (neg r = xorb (neg d) (neg s) \/ mag r = 0).
Proof.
  intros Hd Hs H0 Hc. destruct (div_ok d s) as (r & q & E & Wr & Wq & V & L & Nq & Nr); try (apply wf_wfp; assumption); auto.
  exists r, q. split; auto. split; [apply wf_wfp; auto|]. split; [apply wf_wfp; auto|].
  split; [|split; [|auto]].
  - apply N.div_unique with (mag r); auto. lia.
  - apply N.mod_unique with (mag q); auto. lia.
Qed.

Lemma div_value d s : wf d -> wf s -> (0 < value s)%Z ->
  (len d < 257)%nat \/ nth (len s - 1) (dat s) 0 < 2 ^ 31 \/ (len s < 2)%nat ->
  exists r q, bn_div d s = Some (Some (r, q)) /\ wf r /\ wf q /\
    value q = Z.quot (value d) (value s) /\ value r = Z.rem (value d) (value s).
Proof.
  intros Hd Hs H0 Hc. assert (Ns : neg s = false) by (unfold value in H0; destruct (neg s); auto; lia).
  assert (Ms : mag s <> 0) by (unfold value in H0; rewrite Ns in H0; lia).
  destruct (div_magnitudes d s Hd Hs Ms Hc) as (r & q & E & Wr & Wq & Vq & Vr & Nq & Nr).
  exists r, q. split; auto. split; auto. split; auto.
  rewrite Ns, xorb_false_r in *.
  assert (Eq : Z.of_N (mag q) = Z.quot (Z.of_N (mag d)) (Z.of_N (mag s))).
  { rewrite Vq, N2Z.inj_div. symmetry. apply Z.quot_div_nonneg; lia. }
  assert (Er : Z.of_N (mag r) = Z.rem (Z.of_N (mag d)) (Z.of_N (mag s))).
  { rewrite Vr, N2Z.inj_mod. symmetry. apply Z.rem_mod_nonneg; lia. }
  clear Vq Vr H0. unfold value. rewrite Ns. destruct (neg d).
  - rewrite Z.quot_opp_l, Z.rem_opp_l, <- Eq, <- Er by lia. split.
    + destruct Nq as [->|Z]; auto. rewrite Z. destruct (neg q); reflexivity.
    + destruct Nr as [->|Z]; auto. rewrite Z. destruct (neg r); reflexivity.
  - rewrite <- Eq, <- Er. split.
    + destruct Nq as [->|Z]; auto. rewrite Z. destruct (neg q); reflexivity.
    + destruct Nr as [->|Z]; auto. rewrite Z. destruct (neg r); reflexivity.
Qed.

Lemma div_zero d s : wf s -> value s = 0%Z -> bn_div d s = Some None.
Proof.
  intros Hs V. apply wf_wfp in Hs. assert (M : mag s = 0) by (unfold value in V; destruct (neg s); lia).
  apply (mag_0 s Hs) in M. unfold bn_div. rewrite M. reflexivity.
Qed.

Lemma left_shift_value b n : wf b -> n < 8224 -> fits (mag b * 2 ^ n) ->
  exists r, bn_left_shift b n = Some r /\ wf r /\ value r = (value b * 2 ^ Z.of_N n)%Z.
Proof.
  intros Hb Hn F. destruct (left_shift_ok b n) as (r & E & Wr & Nr & Mr); try (apply wf_wfp; assumption); auto.
  exists r. split; auto. split; [apply wf_wfp; auto|]. rewrite N.mod_small in Mr by exact F.
  unfold value. rewrite Nr, Mr, N2Z.inj_mul, N2Z.inj_pow. destruct (neg b); [rewrite Z.mul_opp_l|]; reflexivity.
Qed.

Lemma right_shift_value b n : wf b -> n < 8224 -> (len b < 257)%nat \/ 32 <= n \/ n = 0 ->
  exists r, bn_right_shift b n = Some r /\ wf r /\ value r = Z.quot (value b) (2 ^ Z.of_N n).
Proof.
  intros Hb Hn Hc. destruct (right_shift_ok b n) as (r & E & Wr & Nr & Mr); try (apply wf_wfp; assumption); auto.
  exists r. split; auto. split; [apply wf_wfp; auto|].
  assert (Er : Z.of_N (mag r) = Z.quot (Z.of_N (mag b)) (2 ^ Z.of_N n)).
  { rewrite Mr, N2Z.inj_div, N2Z.inj_pow. symmetry. apply Z.quot_div_nonneg; [lia|]. apply Z.pow_pos_nonneg; lia. }
  clear Mr. assert (P0 : (2 ^ Z.of_N n <> 0)%Z) by (apply Z.pow_nonzero; lia).
  unfold value. destruct (neg b).
  - rewrite Z.quot_opp_l, <- Er by auto. destruct Nr as [->|Z]; auto. rewrite Z. destruct (neg r); reflexivity.
  - rewrite <- Er. destruct Nr as [->|Z]; auto. rewrite Z. destruct (neg r); reflexivity.
Qed.

(** Decides [wf], for the examples. *)
Definition wfb (b : bn) : bool :=
  Nat.eqb (length (dat b)) 257 && forallb (fun x => x <? 2 ^ 32) (dat b) && Nat.leb (len b) 257 &&
  forallb (fun x => x =? 0) (skipn (len b) (dat b)) &&
  (Nat.eqb (len b) 0 || negb (nth (len b - 1) (dat b) 0 =? 0)).
Lemma wfb_ok b : wfb b = true -> wf b.
Proof.
  unfold wfb. rewrite !andb_true_iff. intros [[[[H1 H2] H3] H4] H5].
  apply Nat.eqb_eq in H1. apply Nat.leb_le in H3. unfold wf.
  split; [exact H1|]. split.
  { apply Forall_forall. rewrite forallb_forall in H2. intros x Hx. apply N.ltb_lt. auto. }
  split; [exact H3|]. split.
  { intros i Hi. rewrite forallb_forall in H4. replace i with (len b + (i - len b))%nat by lia. rewrite <- nth_skipn.
    destruct (Nat.lt_ge_cases (i - len b) (length (skipn (len b) (dat b)))) as [L|L].
    - apply N.eqb_eq. apply H4. apply nth_In. exact L.
    - apply nth_overflow. exact L. }
  apply orb_true_iff in H5. destruct H5 as [H5|H5]; [left; apply Nat.eqb_eq; auto|right].
  apply negb_true_iff, N.eqb_neq in H5. exact H5.
Qed.

Lemma div_magnitudes_value d s : wf d -> wf s -> value s <> 0%Z ->
  (len d < 257)%nat \/ nth (len s - 1) (dat s) 0 < 2 ^ 31 \/ (len s < 2)%nat ->
  exists r q, bn_div d s = Some (Some (r, q)) /\ wf r /\ wf q /\
    mag q = mag d / mag s /\ mag r = mag d mod mag s /\
    (value q = if xorb (neg d) (neg s) then - Z.of_N (mag q) else Z.of_N (mag q))%Z.
Proof.
  intros Hd Hs H0 Hc. assert (Ms : mag s <> 0) by (unfold value in H0; destruct (neg s); lia).
  destruct (div_magnitudes d s Hd Hs Ms Hc) as (r & q & E & Wr & Wq & Vq & Vr & Nq & Nr).
  exists r, q. split; auto. split; auto. split; auto. split; auto. split; auto.
  unfold value. destruct Nq as [->|Z]; [reflexivity|]. rewrite Z. destruct (neg q), (xorb (neg d) (neg s)); reflexivity.
Qed.

Lemma shift_wide b n : 8224 <= n -> bn_right_shift b n = Some b /\ bn_left_shift b n = Some b.
Proof.
  intros H. unfold bn_right_shift, bn_left_shift. destruct (N.eqb_spec n 0) as [->|N0]; [lia|].
  assert (257 <= n / 32) by (apply N.div_le_lower_bound; lia).
  rewrite (proj2 (Nat.leb_le SIZE (N.to_nat (n / 32)))) by (unfold SIZE; lia). auto.
Qed.

(** The primality test of src/mln_bignum.c decides exactly whether a number is a strong probable prime, and the search
    returns odd numbers of the width asked for. *)
Require Import List Arith NArith ZArith Znumtheory Zpow_facts Lia Bool.
Require Import ZifyBool ZifyNat ZifyN.
Require Import Verif.Base Verif.BnModel Verif.BnSpec Verif.BnLimbProofs Verif.BnAddProofs Verif.BnMulProofs
  Verif.BnDivProofs Verif.BnShiftProofs Verif.BnProofs Verif.BnTextModel Verif.BnTextProofs Verif.BnModModel Verif.BnModProofs.
Require Import Verif.NumProofs Verif.BnPrimeModel Verif.BnPrimeSpec.
Import ListNotations.
Open Scope N_scope.

Lemma bn_two_wf : wf bn_two.
Proof. apply wf_wfp. constructor; cbn [bn_two dat len]; [reflexivity| |unfold SIZE; lia| |].
  - constructor; [reflexivity|apply limbs_zeros].
  - reflexivity.
  - right; discriminate.
Qed.
Lemma bn_two_value : value bn_two = 2%Z.
Proof. vm_compute. reflexivity. Qed.

Section Sequence.
Local Open Scope Z_scope.
Variable f : Z -> Z.
Variable v : Z.
Hypothesis V : 3 <= v.
Hypothesis F1 : f 1 = 1.
Hypothesis Fm : f (v - 1) = 1.
Variable y : nat -> Z.
Hypothesis Y : forall i, y (S i) = f (y i).

Definition odd_root (i : nat) : Prop := y (S i) = 1 /\ y i <> 1 /\ y i <> v - 1.

Lemma stays_one i : y i = 1 -> forall j, (i <= j)%nat -> y j = 1.
Proof. intros H j L. induction L as [|j L IH]; [exact H|]. rewrite Y, IH. exact F1. Qed.

Lemma sequence s : ((forall i, (i < s)%nat -> ~ odd_root i) /\ y s = 1) <-> (y 0%nat = 1 \/ exists i, (i < s)%nat /\ y i = v - 1).
Proof.
  split.
  - intros [A B]. induction s as [|s IH]; [left; exact B|].
    destruct (Z.eq_dec (y s) 1) as [E|E].
    + destruct IH as [IH|(i & I & IH)]; [intros i I; apply A; lia|exact E|left; exact IH|right; exists i; split; [lia|exact IH]].
    + destruct (Z.eq_dec (y s) (v - 1)) as [E'|E']; [right; exists s; split; [lia|exact E']|].
      exfalso. apply (A s); [lia|]. split; [exact B|]. split; assumption.
  - intros [A|(i & I & A)].
    + split; [|apply (stays_one 0); [exact A|lia]]. intros i I (_ & H & _). apply H. apply (stays_one 0); [exact A|lia].
    + assert (N1 : y (S i) = 1) by (rewrite Y, A; exact Fm).
      split; [|apply (stays_one (S i)); [exact N1|lia]].
      intros j J (H1 & H2 & H3). destruct (Nat.lt_trichotomy j i) as [C|[C|C]].
      * pose proof (stays_one (S j) H1 i ltac:(lia)). lia.
      * subst j. contradiction.
      * apply H2. apply (stays_one (S i)); [exact N1|lia].
Qed.
End Sequence.

Lemma abs_compare_eq a b : wf a -> wf b -> (0 <= value a)%Z -> (0 <= value b)%Z ->
  exists c, bn_abs_compare a b = Some c /\ ((c =? 0)%Z = true <-> value a = value b).
Proof.
  intros Ha Hb A B. exists (zcmp (Z.of_N (mag a)) (Z.of_N (mag b))). split; [apply abs_compare_ok; apply wf_wfp; assumption|].
  rewrite <- (mag_value a A), <- (mag_value b B). unfold zcmp.
  destruct (Z.compare_spec (value a) (value b)); cbn; split; intros; try discriminate; try lia; auto.
Qed.

Section Test.
Variable p : bn.
Hypothesis Wp : wf p.
Hypothesis P3 : (3 <= value p)%Z.
Hypothesis Fp : fits (mag p * mag p).

Let v := value p.
Definition sq (x : Z) (i : nat) : Z := (x ^ (2 ^ Z.of_nat i) mod v)%Z.

Lemma sq_S x i : sq x (S i) = (sq x i ^ 2 mod v)%Z.
Proof.
  unfold sq. rewrite <- Zpower_mod by (unfold v; lia). rewrite <- Z.pow_mul_r by (try apply Z.pow_nonneg; lia).
  f_equal. f_equal. rewrite Nat2Z.inj_succ, Z.pow_succ_r by lia. lia.
Qed.
Lemma sq_0 x : (0 <= x < v)%Z -> sq x 0 = x.
Proof. intros H. unfold sq. change (2 ^ Z.of_nat 0)%Z with 1%Z. rewrite Z.pow_1_r. apply Z.mod_small. exact H. Qed.
Lemma sq_shift x i : sq (x ^ 2 mod v) i = sq x (S i).
Proof.
  unfold sq. rewrite <- Zpower_mod by (unfold v; lia). rewrite <- Z.pow_mul_r by (try apply Z.pow_nonneg; lia).
  f_equal. f_equal. rewrite Nat2Z.inj_succ, Z.pow_succ_r by lia. lia.
Qed.

Lemma sub_one : exists t, bn_sub p bn_one = Some t /\ wf t /\ value t = (v - 1)%Z.
Proof.
  destruct (sub_ok p bn_one) as (t & E & W & V).
  - apply wf_wfp; exact Wp.
  - apply wfp_one.
  - apply (fits_le _ (mag p * mag p)); [|exact Fp]. rewrite one_value.
    pose proof (mag_value p ltac:(lia)) as M. clear - M P3. assert (Z.abs_N (value p - 1) <= mag p) by lia. nia.
  - left. apply andb_false_r.
  - exists t. split; [exact E|]. split; [apply wf_wfp; exact W|]. rewrite V, one_value. reflexivity.
Qed.

Lemma witness_loop_ok k : forall x nx, wf x -> (0 <= value x < v)%Z -> wf nx ->
  exists b r, witness_loop k p x nx = Some (b, r) /\ wf r /\
    (b = true <-> exists i, (i < k)%nat /\ odd_root v (sq (value x)) i) /\
    (b = false -> (k = 0%nat -> r = nx) /\ ((0 < k)%nat -> value r = sq (value x) k)).
Proof.
  assert (W1 : wf bn_one) by (apply wf_wfp, wfp_one).
  induction k as [|k IH]; intros x nx Hx Bx Hnx; cbn [witness_loop].
  { exists false, nx. split; [reflexivity|]. split; [exact Hnx|]. split; [|intros _; split; [reflexivity|lia]].
    split; [discriminate|]. intros (i & I & _). lia. }
  destruct (pwr_mod_ok x bn_two p Hx bn_two_wf Wp eq_refl) as (y & Ey & Wy & Vy); [unfold v in *; lia|exact Fp|exact Bx|].
  rewrite Ey. cbn [obind]. rewrite bn_two_value in Vy. fold v in Vy.
  assert (By : (0 <= value y < v)%Z) by (rewrite Vy; apply Z.mod_pos_bound; unfold v; lia).
  destruct sub_one as (t & Et & Wt & Vt). rewrite Et. cbn [obind].
  destruct (abs_compare_eq y bn_one Wy W1) as (c & Ec & Hc); [lia|rewrite one_value; lia|]. rewrite Ec. cbn [obind].
  destruct (abs_compare_eq x bn_one Hx W1) as (c1 & Ec1 & Hc1); [lia|rewrite one_value; lia|]. rewrite Ec1. cbn [obind].
  destruct (abs_compare_eq x t Hx Wt) as (c2 & Ec2 & Hc2); [lia|rewrite Vt; unfold v; lia|]. rewrite Ec2. cbn [obind].
  rewrite one_value in Hc, Hc1. rewrite Vt in Hc2.
  assert (S0 : sq (value x) 0 = value x) by (apply sq_0; exact Bx).
  assert (S1 : sq (value x) 1 = value y) by (rewrite sq_S, S0; symmetry; exact Vy).
  destruct ((c =? 0)%Z && negb (c1 =? 0)%Z && negb (c2 =? 0)%Z) eqn:C.
  - exists true, y. split; [reflexivity|]. split; [exact Wy|]. split; [|discriminate]. split; [intros _|reflexivity].
    exists 0%nat. split; [lia|]. unfold odd_root. rewrite S0, S1.
    apply andb_true_iff in C. destruct C as [C C2]. apply andb_true_iff in C. destruct C as [C0 C1].
    apply negb_true_iff in C1, C2. split; [apply Hc; exact C0|]. split; [intros X; apply Hc1 in X; congruence|intros X; apply Hc2 in X; congruence].
  - destruct (IH y y Wy By Wy) as (b & r & E & Wr & Hb & Hr). exists b, r. split; [exact E|]. split; [exact Wr|].
    assert (Sh : forall i, sq (value y) i = sq (value x) (S i)) by (intros i; rewrite Vy; apply sq_shift).
    split.
    + rewrite Hb. split.
      * intros (i & I & O). exists (S i). split; [lia|]. unfold odd_root in *. rewrite <- !Sh. exact O.
      * intros (i & I & O). destruct i as [|i].
        { exfalso. unfold odd_root in O. rewrite S0, S1 in O. destruct O as (O1 & O2 & O3). apply Hc in O1. rewrite O1 in C.
          destruct (c1 =? 0)%Z; [apply O2, Hc1; reflexivity|]. destruct (c2 =? 0)%Z; [apply O3, Hc2; reflexivity|]. discriminate. }
        exists i. split; [lia|]. unfold odd_root in *. rewrite !Sh. exact O.
    + intros B. destruct (Hr B) as [R0 R1]. split; [lia|]. intros _. destruct k as [|k].
      * rewrite (R0 eq_refl). symmetry. exact S1.
      * rewrite R1 by lia. apply Sh.
Qed.

End Test.

Lemma seperate_ok fuel : forall o w, wf o -> (0 < value o)%Z -> (value o < 2 ^ Z.of_nat fuel)%Z ->
  exists s q t, seperate fuel w o = Some (w + s, q) /\ wf q /\ (0 <= t)%Z /\ value q = (2 * t + 1)%Z /\ value o = (2 ^ Z.of_N s * (2 * t + 1))%Z.
Proof.
  induction fuel as [|f IH]; intros o w Ho O0 B; [change (2 ^ Z.of_nat 0)%Z with 1%Z in B; lia|]. cbn [seperate].
  destruct (div_value o bn_two Ho bn_two_wf) as (m & q & E & Wm & Wq & Vq & Vm); [rewrite bn_two_value; lia|right; right; cbn; lia|].
  rewrite E. cbn [obind]. rewrite bn_two_value in *.
  pose proof (Z.quot_rem' (value o) 2) as QR. rewrite <- Vq, <- Vm in QR.
  assert (Bm : (0 <= value m < 2)%Z) by (rewrite Vm, Z.rem_mod_nonneg by lia; apply Z.mod_pos_bound; lia).
  destruct (Nat.eqb_spec (len m) 0) as [L|L].
  - assert (M0 : value m = 0%Z).
    { apply wf_wfp in Wm. pose proof (mag_0 m Wm) as Z0. unfold value. assert (mag m = 0) as -> by (apply Z0; exact L). destruct (neg m); reflexivity. }
    destruct (IH q (w + 1) Wq) as (s & q' & t & E' & W' & T & V1 & V2); [lia| |].
    { rewrite Nat2Z.inj_succ, Z.pow_succ_r in B by lia. lia. }
    exists (s + 1), q', t. split; [rewrite E'; f_equal; f_equal; lia|]. split; [exact W'|]. split; [exact T|]. split; [exact V1|].
    rewrite N2Z.inj_add, Z.pow_add_r by lia. change (2 ^ Z.of_N 1)%Z with 2%Z. lia.
  - assert (M1 : value m = 1%Z).
    { apply wf_wfp in Wm. pose proof (mag_0 m Wm) as Z0. pose proof (mag_value m ltac:(lia)). assert (mag m <> 0) by (intros X; apply Z0 in X; contradiction). lia. }
    exists 0, o, (value q). rewrite N.add_0_r. split; [reflexivity|]. split; [exact Ho|]. split; [lia|]. change (2 ^ Z.of_N 0)%Z with 1%Z. lia.
Qed.

Lemma two_adic_unique : forall s s' t t', (0 <= s -> 0 <= s' -> 2 ^ s * (2 * t + 1) = 2 ^ s' * (2 * t' + 1) -> s = s' /\ t = t')%Z.
Proof.
  assert (H : forall s d t t', (0 <= s -> 0 < d -> 2 ^ s * (2 * t + 1) = 2 ^ (s + d) * (2 * t' + 1) -> False)%Z).
  { intros s d t t' S D E. rewrite Z.pow_add_r, <- Z.mul_assoc in E by lia. apply Z.mul_reg_l in E; [|apply Z.pow_nonzero; lia].
    replace d with (Z.succ (d - 1)) in E by lia. rewrite Z.pow_succ_r in E by lia. revert E. generalize (2 ^ (d - 1))%Z. intros; lia. }
  intros s s' t t' S S' E. destruct (Z.lt_trichotomy s s') as [C|[C|C]].
  - exfalso. apply (H s (s' - s)%Z t t'); [lia|lia|]. rewrite E. f_equal. f_equal. lia.
  - subst s'. split; [reflexivity|]. apply Z.mul_reg_l in E; [lia|]. apply Z.pow_nonzero; lia.
  - exfalso. apply (H s' (s - s')%Z t' t); [lia|lia|]. rewrite <- E. f_equal. f_equal. lia.
Qed.

Theorem witness_ok p b : wf p -> wf b -> (3 <= value p)%Z -> (value p mod 2 = 1)%Z -> fits (mag p * mag p) -> (0 <= value b < value p)%Z ->
  exists w, witness b p = Some w /\ (w = false <-> strong_probable_prime (value p) (value b)).
Proof.
  intros Wp Wb P3 Od Fp Bb. unfold witness.
  destruct (sub_one p Wp P3 Fp) as (o & Eo & Wo & Vo). rewrite Eo. cbn [obind].
  destruct (seperate_ok (32 * len o + 1)%nat o 0 Wo) as (s & q & t & Es & Wq & T & Vq & Vd); [lia| |].
  { pose proof (mag_lt o (proj1 (wf_wfp o) Wo)) as M. rewrite (mag_value o) by lia. unfold P in M. change BB with (2 ^ 32) in M. rewrite <- N.pow_mul_r in M.
    apply N2Z.inj_lt in M. rewrite N2Z.inj_pow in M. change (Z.of_N 2) with 2%Z in M. eapply Z.lt_le_trans; [exact M|].
    apply Z.pow_le_mono_r; lia. }
  rewrite Es. rewrite N.add_0_l. cbn [obind].
  assert (Nq : neg q = false) by (unfold value in Vq; destruct (neg q); [lia|reflexivity]).
  destruct (pwr_mod_ok b q p Wb Wq Wp Nq) as (x & Ex & Wx & Vx); [lia|exact Fp|exact Bb|]. rewrite Ex. cbn [obind].
  assert (Bx : (0 <= value x < value p)%Z) by (rewrite Vx; apply Z.mod_pos_bound; lia).
  destruct (witness_loop_ok p Wp P3 Fp (N.to_nat s) x bn_zero Wx Bx (proj2 (wf_wfp _) wfp_zero)) as (f & r & El & Wr & Hf & Hr). rewrite El. cbn [obind].
  assert (S1 : (0 < N.to_nat s)%nat).
  { destruct (N.eq_dec s 0) as [Z|Z]; [|lia]. exfalso. rewrite Z in Vd. change (2 ^ Z.of_N 0)%Z with 1%Z in Vd. clear - Vd Vo Od. lia. }
  rewrite Vo in Vd. set (v := value p) in *.
  assert (Y : forall i, sq p (value x) i = (value b ^ (2 ^ Z.of_nat i * (2 * t + 1)) mod v)%Z).
  { intros i. unfold sq. rewrite Vx, <- Zpower_mod by lia. rewrite <- Z.pow_mul_r by (try apply Z.pow_nonneg; lia). f_equal. f_equal. rewrite Vq. ring. }
  assert (F : forall a, (a ^ 2 mod v)%Z = (fun z => z ^ 2 mod v)%Z a) by reflexivity.
  assert (G1 : (1 ^ 2 mod v = 1)%Z) by (rewrite Z.pow_1_l by lia; apply Z.mod_small; lia).
  assert (Gm : ((v - 1) ^ 2 mod v = 1)%Z) by (replace ((v - 1) ^ 2)%Z with (1 + (v - 2) * v)%Z by ring; rewrite Z.mod_add by lia; apply Z.mod_small; lia).
  pose proof (sequence (fun z => z ^ 2 mod v)%Z v P3 G1 Gm (sq p (value x)) (sq_S p P3 (value x)) (N.to_nat s)) as Sq.
  assert (SP : strong_probable_prime v (value b) <-> (sq p (value x) 0 = 1%Z \/ exists i, (i < N.to_nat s)%nat /\ sq p (value x) i = (v - 1)%Z)).
  { split.
    - intros (s' & o' & S0 & O0 & D & H). destruct (two_adic_unique s' (Z.of_N s) o' t) as [-> ->]; [clear - S0; lia|clear; lia|congruence|].
      rewrite (Z.mod_small 1) in H by (clear - P3; lia). destruct H as [H|(i & I & H)].
      + left. rewrite Y. change (2 ^ Z.of_nat 0)%Z with 1%Z. rewrite Z.mul_1_l. exact H.
      + right. exists (Z.to_nat i). split; [clear - I; lia|]. rewrite Y, Z2Nat.id by (clear - I; lia). exact H.
    - intros H. exists (Z.of_N s), t. split; [clear; lia|]. split; [exact T|]. split; [exact Vd|]. rewrite (Z.mod_small 1) by (clear - P3; lia). destruct H as [H|(i & I & H)].
      + left. rewrite Y in H. change (2 ^ Z.of_nat 0)%Z with 1%Z in H. rewrite Z.mul_1_l in H. exact H.
      + right. exists (Z.of_nat i). split; [clear - I; lia|]. rewrite Y in H. exact H. }
  destruct f.
  - exists true. split; [reflexivity|]. rewrite SP, <- Sq. split; [discriminate|]. intros [A _]. exfalso. destruct (proj1 Hf eq_refl) as (i & I & O). exact (A i I O).
  - destruct (Hr eq_refl) as [_ Vr]. specialize (Vr S1).
    destruct (abs_compare_eq r bn_one Wr (proj2 (wf_wfp _) wfp_one)) as (c & Ec & Hc); [rewrite Vr; apply Z.mod_pos_bound; clear - P3; unfold v in *; lia|rewrite one_value; clear; lia|].
    rewrite Ec. cbn [obind]. exists (negb (c =? 0)%Z). split; [reflexivity|]. rewrite SP, <- Sq. rewrite one_value, Vr in Hc. rewrite negb_false_iff, Hc.
    split; [intros H; split; [|exact H]|intros [_ H]; exact H]. intros i I O. assert (false = true) by (apply Hf; exists i; split; assumption). discriminate.
Qed.

Lemma prime_passes v b : prime v -> (v mod 2 = 1)%Z -> (0 < b < v)%Z -> strong_probable_prime v b.
Proof.
  intros Pv Od B. pose proof (prime_gt1 _ Pv) as V1. assert (V3 : (3 <= v)%Z) by (clear - V1 Od; destruct (Z.eq_dec v 2) as [->|]; [discriminate|lia]).
  assert (D : exists s o, (0 <= s /\ 0 <= o /\ v - 1 = 2 ^ s * (2 * o + 1))%Z).
  { assert (H : (0 < v - 1)%Z) by lia. revert H. generalize (v - 1)%Z. clear. intros n H. assert (H0 : (0 <= n)%Z) by lia. revert H0 H.
    apply (Z_lt_induction (fun n => (0 < n)%Z -> exists s o, (0 <= s /\ 0 <= o /\ n = 2 ^ s * (2 * o + 1))%Z)). clear n. intros n IH N.
    pose proof (Z.div_mod n 2 ltac:(lia)) as E. pose proof (Z.mod_pos_bound n 2 ltac:(lia)) as M.
    destruct (Z.eq_dec (n mod 2) 1) as [O|O].
    - exists 0%Z, (n / 2)%Z. split; [lia|]. split; [apply Z.div_pos; lia|]. rewrite Z.pow_0_r. lia.
    - destruct (IH (n / 2)%Z) as (j & t & J & T & F); [split; [apply Z.div_pos; lia|apply Z.div_lt; lia]|lia|].
      exists (j + 1)%Z, t. split; [lia|]. split; [lia|]. rewrite Z.pow_add_r, Z.pow_1_r by lia. lia. }
  destruct D as (s & o & S0 & O0 & D). exists s, o. split; [exact S0|]. split; [exact O0|]. split; [exact D|].
  set (y := fun i : nat => (b ^ (2 ^ Z.of_nat i * (2 * o + 1)) mod v)%Z).
  assert (Ys : forall i, y (S i) = (fun z => z ^ 2 mod v)%Z (y i)).
  { intros i. unfold y. rewrite <- Zpower_mod by lia. rewrite <- Z.pow_mul_r by (try apply Z.mul_nonneg_nonneg; try apply Z.pow_nonneg; lia). f_equal. f_equal.
    rewrite Nat2Z.inj_succ, Z.pow_succ_r by lia. ring. }
  assert (G1 : (1 ^ 2 mod v = 1)%Z) by (rewrite Z.pow_1_l by lia; apply Z.mod_small; lia).
  assert (Gm : ((v - 1) ^ 2 mod v = 1)%Z) by (replace ((v - 1) ^ 2)%Z with (1 + (v - 2) * v)%Z by ring; rewrite Z.mod_add by lia; apply Z.mod_small; lia).
  pose proof (sequence (fun z => z ^ 2 mod v)%Z v V3 G1 Gm y Ys (Z.to_nat s)) as Sq.
  assert (H : (y 0%nat = 1 \/ exists i, (i < Z.to_nat s)%nat /\ y i = v - 1)%Z).
  { apply Sq. split.
    - intros i I (R1 & R2 & R3). rewrite Ys in R1. destruct (sqrt_of_one v (y i) Pv) as [X|X]; [apply Z.mod_pos_bound; lia| |contradiction|contradiction].
      rewrite <- Z.pow_2_r. exact R1.
    - unfold y. rewrite Z2Nat.id by exact S0. rewrite <- D. apply fermat_little; assumption. }
  rewrite (Z.mod_small 1) by (clear - V3; lia). destruct H as [H|(i & I & H)].
  - left. unfold y in H. change (2 ^ Z.of_nat 0)%Z with 1%Z in H. rewrite Z.mul_1_l in H. exact H.
  - right. exists (Z.of_nat i). split; [clear - I S0; lia|exact H].
Qed.

(** ** The numbers drawn *)
Lemma set_low_ok l : l <> [] -> limbs l ->
  limbs (set_low l) /\ length (set_low l) = length l /\ N.odd (val (set_low l)) = true /\
  (val (set_low l) = val l \/ (val (set_low l) = val l + 1 /\ N.odd (val l) = false)).
Proof.
  intros E L. destruct l as [|x l]; [contradiction|]. inversion L as [|? ? Lx Ll]; subst. unfold limb in Lx. cbn [set_low length].
  assert (H : N.lor x 1 = if N.odd x then x else x + 1) by (destruct x as [|[p|p|]]; reflexivity).
  assert (Ob : N.odd (BB * val l) = false) by (rewrite N.odd_mul; reflexivity).
  rewrite !val_cons, !N.odd_add, Ob, H. destruct (N.odd x) eqn:O.
  - split; [constructor; assumption|]. split; [reflexivity|]. rewrite O. split; [reflexivity|left; reflexivity].
  - assert (X : x + 1 < BB).
    { assert (x <> BB - 1) by (intros ->; discriminate). lia. }
    split; [constructor; assumption|]. split; [reflexivity|]. rewrite N.odd_add, O. split; [reflexivity|right; split; [lia|reflexivity]].
Qed.

Lemma fill_limbs_ok n : forall ds body ds', fill_limbs n ds = Some (body, ds') -> draws ds -> length body = n /\ limbs body /\ draws ds'.
Proof.
  induction n as [|n IH]; intros ds body ds' E D; cbn [fill_limbs] in E.
  - injection E as <- <-. split; [reflexivity|]. split; [constructor|exact D].
  - destruct ds as [|d ds]; [discriminate|]. cbn [draw obind fst snd] in E. inversion D as [|? ? Dd Dr]; subst.
    destruct (fill_limbs n ds) as [[b r]|] eqn:F; [|discriminate]. cbn [obind fst snd] in E. injection E as <- <-.
    destruct (IH _ _ _ F Dr) as (L & B & R). split; [cbn [length]; lia|]. split; [|exact R]. constructor; [|exact B].
    unfold limb. change 4294967295 with (N.ones 32). rewrite N.land_ones. apply N.mod_lt. discriminate.
Qed.

Lemma P_pow n : P n = 2 ^ (32 * N.of_nat n).
Proof. unfold P. change BB with (2 ^ 32). rewrite <- N.pow_mul_r. reflexivity. Qed.

Lemma lor_top x k : x < 2 ^ (k + 1) -> 2 ^ k <= N.lor x (2 ^ k) < 2 ^ (k + 1).
Proof.
  intros H. split.
  - apply N.ldiff_le. apply N.bits_inj. intros i. rewrite N.ldiff_spec, N.lor_spec, N.bits_0. destruct (N.testbit (2 ^ k) i); [rewrite orb_true_r; reflexivity|reflexivity].
  - destruct (N.eq_dec (N.lor x (2 ^ k)) 0) as [->|Z]; [apply N.neq_0_lt_0, N.pow_nonzero; discriminate|].
    apply N.log2_lt_pow2; [lia|]. rewrite N.log2_lor, N.log2_pow2 by lia.
    destruct (N.eq_dec x 0) as [->|X]; [cbn; lia|]. apply N.log2_lt_pow2 in H; lia.
Qed.

Lemma odd_below a w : a < 2 ^ w -> 1 <= w -> N.odd a = false -> a + 1 < 2 ^ w.
Proof.
  intros H W O. assert (E : 2 ^ w = 2 * 2 ^ (w - 1)) by (rewrite <- N.pow_succ_r'; f_equal; lia).
  rewrite E in *. revert H. generalize (2 ^ (w - 1)). intros z H. rewrite <- N.negb_even in O. apply negb_false_iff, N.even_spec in O. destruct O as [y ->]. lia.
Qed.

(** A number from its limbs: [n] low ones and a top one of [off] bits. *)
Lemma from_limbs body t off width : limbs body -> 1 <= off <= 32 -> 2 ^ (off - 1) <= t < 2 ^ off -> width = 32 * N.of_nat (length body) + off ->
  (S (length body) <= SIZE)%nat -> 2 <= width ->
  let b := mkBn false (S (length body)) (set_low (body ++ [t]) ++ zeros (SIZE - S (length body))) in
  wf b /\ neg b = false /\ odd_of_width width (mag b).
Proof.
  intros Lb Off T Wd Sz W2 b.
  assert (Tb : t < BB) by (apply N.lt_le_trans with (2 ^ off); [lia|]; change BB with (2 ^ 32); apply N.pow_le_mono_r; lia).
  assert (Ll : limbs (body ++ [t])) by (apply limbs_app; split; [exact Lb|constructor; [exact Tb|constructor]]).
  destruct (set_low_ok (body ++ [t])) as (L1 & L2 & L3 & L4); [destruct body; discriminate|exact Ll|].
  rewrite app_length, Nat.add_1_r in L2. cbn [length] in L2.
  assert (Mb : mag b = val (set_low (body ++ [t]))) by (unfold mag, b; cbn [dat]; rewrite val_app, val_zeros; lia).
  assert (V : val (body ++ [t]) = val body + P (length body) * t) by (rewrite val_app, val_cons, val_nil; lia).
  pose proof (val_bound _ Lb) as Vb. rewrite P_pow in *. set (h := 32 * N.of_nat (length body)) in *.
  assert (E1 : 2 ^ (width - 1) = 2 ^ h * 2 ^ (off - 1)) by (rewrite <- N.pow_add_r; f_equal; lia).
  assert (E2 : 2 ^ width = 2 ^ h * 2 ^ off) by (rewrite <- N.pow_add_r; f_equal; lia).
  assert (R0 : 2 ^ (width - 1) <= val (body ++ [t]) < 2 ^ width).
  { rewrite V, E1, E2. clear - T Vb. revert T Vb. generalize (2 ^ h) (2 ^ off) (2 ^ (off - 1)). intros a c d. intros. nia. }
  assert (R1 : 2 ^ (width - 1) <= mag b < 2 ^ width).
  { rewrite Mb. destruct L4 as [->|[-> O]]; [exact R0|]. split; [clear - R0; lia|]. apply odd_below; [apply R0|clear - W2; lia|exact O]. }
  split; [|split; [reflexivity|split; [exact R1|rewrite Mb; exact L3]]].
  apply wf_wfp. unfold b. apply wfp_mk.
  - rewrite app_length, L2, zeros_length. clear - Sz. lia.
  - apply limbs_app. split; [exact L1|apply limbs_zeros].
  - exact Sz.
  - change (mag b < P (S (length body))). rewrite P_pow. eapply N.lt_le_trans; [apply R1|]. apply N.pow_le_mono_r; [discriminate|]. unfold h in *. clear - Wd Off. lia.
  - right. change (P (S (length body) - 1) <= mag b). rewrite P_pow. eapply N.le_trans; [|apply R1]. apply N.pow_le_mono_r; [discriminate|]. unfold h in *. clear - Wd Off. lia.
Qed.

Lemma random_prime_ok width ds b ds' : 2 <= width -> draws ds -> random_prime width ds = Some (b, ds') ->
  wf b /\ neg b = false /\ odd_of_width width (mag b) /\ draws ds'.
Proof.
  intros W D E. unfold random_prime in E. cbv zeta in E.
  destruct (Nat.ltb_spec SIZE (N.to_nat (width / 32))) as [|S0]; [discriminate|].
  destruct (fill_limbs (N.to_nat (width / 32)) ds) as [[body ds1]|] eqn:F; [|discriminate]. cbn [obind] in E.
  destruct (fill_limbs_ok _ _ _ _ F D) as (Lb & Bb & D1).
  assert (Wd : width = 32 * (width / 32) + width mod 32) by (apply N.div_mod'; discriminate).
  assert (Off : width mod 32 < 32) by (apply N.mod_lt; discriminate).
  destruct (N.eqb_spec (width mod 32) 0) as [O|O]; cbn [negb] in E.
  - destruct (N.to_nat (width / 32)) as [|k] eqn:K; [exfalso; clear - K O Wd W; lia|].
    assert (B0 : forall c, c < 2 ^ 32 -> 2 ^ 31 <= N.lor c 2147483648 < 2 ^ 32) by (intros c Hc; change 2147483648 with (2 ^ 31); apply (lor_top c 31); exact Hc).
    assert (Lk : length (firstn k body) = k) by (apply firstn_length_le; lia).
    assert (X : forall c ds2, c < 2 ^ 32 -> draws ds2 ->
      Some (mkBn false (S k) (set_low (firstn k body ++ [N.lor c 2147483648]) ++ zeros (SIZE - S k)), ds2) = Some (b, ds') ->
      wf b /\ neg b = false /\ odd_of_width width (mag b) /\ draws ds').
    { intros c ds2 Hc D2 E2. injection E2 as <- <-.
      destruct (from_limbs (firstn k body) (N.lor c 2147483648) 32 width) as (R1 & R2 & R3); [apply limbs_firstn; exact Bb|lia|apply B0; exact Hc|rewrite Lk; lia|rewrite Lk; exact S0|exact W|].
      rewrite Lk in *. auto. }
    destruct (N.eqb_spec (nth k body 0) 0) as [Z|Z].
    + destruct ds1 as [|d ds1]; [discriminate|]. cbn [draw obind fst snd] in E. inversion D1 as [|? ? Dd Dr]; subst.
      apply (X d ds1); [|exact Dr|exact E]. apply N.lt_trans with (2 ^ 31); [exact Dd|reflexivity].
    + cbn [obind fst snd] in E. apply (X (nth k body 0) ds1); [|exact D1|exact E].
      apply (proj1 (Forall_forall _ _) Bb). apply nth_In. lia.
  - destruct (Nat.leb_spec SIZE (N.to_nat (width / 32))) as [|S1]; [discriminate|].
    destruct ds1 as [|d ds1]; [discriminate|]. cbn [draw obind fst snd] in E. inversion D1 as [|? ? Dd Dr]; subst. clear Dd.
    injection E as <- <-. set (off := width mod 32) in *. set (t := N.shiftr _ _).
    assert (T : 2 ^ (off - 1) <= t < 2 ^ off).
    { unfold t. set (u := N.lor _ _). assert (Hu : t = u mod 2 ^ off).
      { unfold t. unfold w64. rewrite N.shiftl_mul_pow2, N.shiftr_div_pow2. change W with (2 ^ 64).
        replace (2 ^ 64) with (2 ^ off * 2 ^ (64 - off)) by (rewrite <- N.pow_add_r; f_equal; clear - Off; lia).
        rewrite N.mul_mod_distr_r by (apply N.pow_nonzero; discriminate). apply N.div_mul. apply N.pow_nonzero; discriminate. }
      fold u in t. fold t. rewrite Hu. split; [|apply N.mod_lt, N.pow_nonzero; discriminate].
      assert (Tb : N.testbit (u mod 2 ^ off) (off - 1) = true).
      { rewrite N.mod_pow2_bits_low by (clear - O; lia). unfold u. rewrite N.lor_spec, N.pow2_bits_true. apply orb_true_r. }
      apply N.testbit_true in Tb. pose proof (N.div_mod' (u mod 2 ^ off) (2 ^ (off - 1))) as Dm.
      revert Tb Dm. generalize (u mod 2 ^ off). intros z Tb Dm. assert (z / 2 ^ (off - 1) <> 0) by (intros Z; rewrite Z in Tb; discriminate).
      clear - Dm H. revert Dm H. generalize (z / 2 ^ (off - 1)) (z mod 2 ^ (off - 1)) (2 ^ (off - 1)). intros; nia. }
    destruct (from_limbs body t off width) as (R1 & R2 & R3); [exact Bb|clear - O Off; lia|exact T|rewrite Lb; clear - Wd; lia|rewrite Lb; clear - S1; lia|exact W|].
    rewrite Lb in *. auto.
Qed.

Lemma random_scope_ok fuel : forall width ds b ds', draws ds -> random_scope fuel width ds = Some (b, ds') -> 2 <= width ->
  wf b /\ neg b = false /\ draws ds' /\ 2 <= mag b < 2 ^ (width - 1) /\ N.odd (mag b) = true.
Proof.
  induction fuel as [|f IH]; intros width ds b ds' D E W; cbn [random_scope] in E; [discriminate|].
  destruct ds as [|d ds]; [discriminate|]. cbn [draw obind fst snd] in E. inversion D as [|? ? Dd Dr]; subst.
  destruct (N.ltb_spec (d mod width) 2) as [L|L]; [exact (IH _ _ _ _ Dr E W)|].
  destruct (random_prime_ok _ _ _ _ L Dr E) as (Wb & Nb & [R O] & D'). split; [exact Wb|]. split; [exact Nb|]. split; [exact D'|]. split; [|exact O].
  assert (M : d mod width < width) by (apply N.mod_lt; lia). split.
  - eapply N.le_trans; [|apply R]. change 2 with (2 ^ 1) at 1. apply N.pow_le_mono_r; [discriminate|lia].
  - eapply N.lt_le_trans; [apply R|]. apply N.pow_le_mono_r; [discriminate|lia].
Qed.

(** ** The search *)
Definition gen (w : N) (ds : list N) : option (N * list N) :=
  match random_prime w ds with Some (b, r) => Some (mag b, r) | None => None end.

Lemma gen_ok w ds v r : 2 <= w -> draws ds -> gen w ds = Some (v, r) -> odd_of_width w v /\ draws r.
Proof.
  unfold gen. intros W D E. destruct (random_prime w ds) as [[b r']|] eqn:R; [|discriminate]. injection E as <- <-.
  destruct (random_prime_ok _ _ _ _ W D R) as (_ & _ & O & D'). split; assumption.
Qed.

Lemma random_scope_sample fuel : forall width ds b ds', random_scope fuel width ds = Some (b, ds') -> sample gen width ds (mag b) ds'.
Proof.
  induction fuel as [|f IH]; intros width ds b ds' E; cbn [random_scope] in E; [discriminate|].
  destruct ds as [|d ds]; [discriminate|]. cbn [draw obind fst snd] in E.
  destruct (N.ltb_spec (d mod width) 2) as [L|L]; [apply sample_skip; [exact L|exact (IH _ _ _ _ E)]|].
  apply sample_take; [exact L|]. unfold gen. rewrite E. reflexivity.
Qed.

Lemma pos_value b : neg b = false -> value b = Z.of_N (mag b).
Proof. unfold value. intros ->. reflexivity. Qed.

Lemma fits_square v width : v < 2 ^ width -> width <= 4112 -> fits (v * v).
Proof.
  intros H W. unfold fits. assert (E : 2 ^ width * 2 ^ width <= 2 ^ 8224) by (rewrite <- N.pow_add_r; apply N.pow_le_mono_r; [discriminate|lia]).
  assert (L : v * v < 2 ^ width * 2 ^ width) by (apply N.mul_lt_mono; assumption). clear - E L. lia.
Qed.

Lemma odd_mod2 v : N.odd v = true -> (Z.of_N v mod 2 = 1)%Z.
Proof. destruct v as [|[v|v|]]; try discriminate; intros _; [|reflexivity]. cbn [Z.of_N]. rewrite Pos2Z.inj_xI, Z.mul_comm, Z.add_comm. rewrite Z.mod_add by discriminate. reflexivity. Qed.

Section Candidate.
Variables (width : N) (p : bn).
Hypothesis (W3 : 3 <= width) (W4 : width <= 4112) (Wp : wf p) (Np : neg p = false) (Op : odd_of_width width (mag p)).

Lemma candidate_big : 3 <= mag p.
Proof.
  destruct Op as [[L _] O]. assert (4 <= 2 ^ (width - 1)) by (change 4 with (2 ^ 2); apply N.pow_le_mono_r; [discriminate|clear - W3; lia]). clear - L H. lia.
Qed.

Lemma candidate_witness b : wf b -> neg b = false -> 2 <= mag b < 2 ^ (width - 1) ->
  exists w, witness b p = Some w /\ (w = false <-> strong_probable_prime (Z.of_N (mag p)) (Z.of_N (mag b))).
Proof.
  intros Wb Nb Bb. pose proof candidate_big as B3. destruct (witness_ok p b Wp Wb) as (w & E & H).
  - rewrite (pos_value p Np). clear - B3. lia.
  - rewrite (pos_value p Np). apply odd_mod2. apply Op.
  - eapply fits_square; [apply Op|exact W4].
  - rewrite (pos_value p Np), (pos_value b Nb). destruct Op as [[L _] _]. clear - L Bb. lia.
  - rewrite (pos_value p Np), (pos_value b Nb) in H. exists w. split; assumption.
Qed.

Lemma try_bases_trial k : forall ds ok ds', draws ds -> try_bases k width p ds = Some (ok, ds') -> trial gen width (mag p) k ds ok ds' /\ draws ds'.
Proof.
  induction k as [|k IH]; intros ds ok ds' D E; cbn [try_bases] in E.
  - injection E as <- <-. split; [constructor|exact D].
  - destruct (random_scope (length ds) width ds) as [[b r]|] eqn:R; [|discriminate]. cbn [obind fst snd] in E.
    destruct (random_scope_ok _ width ds b r D R ltac:(clear - W3; lia)) as (Wb & Nb & D' & Rb & _).
    destruct (candidate_witness b Wb Nb Rb) as (w & Ew & Hw). rewrite Ew in E. cbn [obind] in E.
    pose proof (random_scope_sample _ _ _ _ _ R) as Sm. destruct w.
    + injection E as <- <-. split; [|exact D']. eapply trial_fail; [exact Sm|]. intros H. apply Hw in H. discriminate.
    + destruct (IH _ _ _ D' E) as [T D2]. split; [|exact D2]. eapply trial_pass; [exact Sm|apply Hw; reflexivity|exact T].
Qed.
End Candidate.

Lemma prime_loop_search fuel : forall width ds p ds', 3 <= width -> width <= 4112 -> draws ds -> prime_loop fuel width ds = Some (p, ds') ->
  wf p /\ neg p = false /\ odd_of_width width (mag p) /\ draws ds' /\ exists rejected, search gen width ds rejected (mag p) ds'.
Proof.
  induction fuel as [|f IH]; intros width ds p ds' W3 W4 D E; cbn [prime_loop] in E; [discriminate|].
  destruct (random_prime width ds) as [[c r]|] eqn:R; [|discriminate]. cbn [obind fst snd] in E.
  destruct (random_prime_ok width ds c r ltac:(clear - W3; lia) D R) as (Wc & Nc & Oc & D1).
  assert (G : gen width ds = Some (mag c, r)) by (unfold gen; rewrite R; reflexivity).
  pose proof (candidate_big width c W3 Oc) as B3.
  rewrite abs_compare_ok in E by (first [apply wf_wfp; exact Wc|apply wfp_one]). cbn [obind] in E.
  destruct (Z.leb_spec (zcmp (Z.of_N (mag c)) (Z.of_N (mag bn_one))) 0) as [L|_].
  { exfalso. unfold zcmp in L. change (mag bn_one) with 1 in L. destruct (Z.compare_spec (Z.of_N (mag c)) (Z.of_N 1)) as [X|X|X]; clear - X B3 L; lia. }
  assert (Rd : (if width <=? 512 then 4%nat else N.to_nat (N.shiftr width 9)) = rounds width) by (unfold rounds; rewrite N.shiftr_div_pow2; reflexivity).
  rewrite Rd in E. clear Rd.
  destruct (try_bases (rounds width) width c r) as [[ok r1]|] eqn:T; [|discriminate]. cbn [obind fst snd] in E.
  destruct (try_bases_trial width c W3 W4 Wc Nc Oc _ _ _ _ D1 T) as [Tr D2]. destruct ok.
  - injection E as <- <-. split; [exact Wc|]. split; [exact Nc|]. split; [exact Oc|]. split; [exact D2|]. exists []. eapply search_found; eassumption.
  - destruct (IH _ _ _ _ W3 W4 D2 E) as (A1 & A2 & A3 & A4 & rej & S). repeat (split; [assumption|]). exists (mag c :: rej). eapply search_next; eassumption.
Qed.

Lemma bn_prime_search width ds p ds' : draws ds -> bn_prime width ds = Some (Some (p, ds')) ->
  3 <= width <= 4112 /\ wf p /\ neg p = false /\ odd_of_width width (mag p) /\ draws ds' /\ exists rejected, search gen width ds rejected (mag p) ds'.
Proof.
  unfold bn_prime. intros D E. change (N.shiftr BITS 1) with 4112 in E.
  destruct (N.ltb_spec 4112 width) as [|L]; [discriminate|]. destruct (N.ltb_spec width 3) as [|L3]; [discriminate|]. cbn [orb] in E.
  destruct (prime_loop (length ds) width ds) as [[p' r]|] eqn:R; [|discriminate]. cbn [obind] in E. injection E as -> ->.
  split; [split; assumption|]. apply (prime_loop_search _ _ _ _ _ L3 L D R).
Qed.

(** What the relation gives about its results. *)
Lemma trial_draws g width v n ds ok r : (forall w ds v r, 2 <= w -> draws ds -> g w ds = Some (v, r) -> odd_of_width w v /\ draws r) ->
  trial g width v n ds ok r -> draws ds -> draws r.
Proof.
  intros G. assert (S : forall ds b r, sample g width ds b r -> draws ds -> draws r).
  { induction 1 as [d ds0 b r0 L _ IH|d ds0 b r0 L E]; intros D; inversion D; subst; [auto|]. apply (G _ _ _ _ L H2 E). }
  induction 1; intros D; eauto.
Qed.

Lemma sample_range g width ds b r : (forall w ds v r, 2 <= w -> draws ds -> g w ds = Some (v, r) -> odd_of_width w v /\ draws r) ->
  1 <= width -> sample g width ds b r -> draws ds -> 2 <= b < 2 ^ (width - 1) /\ draws r.
Proof.
  intros G W. induction 1 as [d ds0 b r0 L _ IH|d ds0 b r0 L E]; intros D; inversion D; subst; [auto|].
  destruct (G _ _ _ _ L H2 E) as [[R _] D']. split; [|exact D'].
  assert (M : d mod width < width) by (apply N.mod_lt; lia). split.
  - eapply N.le_trans; [|apply R]. change 2 with (2 ^ 1) at 1. apply N.pow_le_mono_r; [discriminate|lia].
  - eapply N.lt_le_trans; [apply R|]. apply N.pow_le_mono_r; [discriminate|lia].
Qed.

Lemma trial_prime g width v n ds ok r : (forall w ds v r, 2 <= w -> draws ds -> g w ds = Some (v, r) -> odd_of_width w v /\ draws r) ->
  3 <= width -> odd_of_width width v -> trial g width v n ds ok r -> draws ds -> prime (Z.of_N v) -> ok = true.
Proof.
  intros G W O T D P. revert D. induction T as [ds|n ds b r ok r' Sm Sp T IH|n ds b r Sm Sp]; intros D; [reflexivity| |].
  - apply IH. apply (sample_range g width ds _ _ G ltac:(lia) Sm D).
  - exfalso. apply Sp. destruct (sample_range g width ds _ _ G ltac:(lia) Sm D) as [R _]. destruct O as [[L _] Ov].
    apply prime_passes; [exact P| |clear - R L; lia].
    apply odd_mod2. exact Ov.
Qed.

Lemma search_rejects g width ds rejected v r : (forall w ds v r, 2 <= w -> draws ds -> g w ds = Some (v, r) -> odd_of_width w v /\ draws r) ->
  3 <= width -> search g width ds rejected v r -> draws ds -> Forall (fun c => ~ prime (Z.of_N c)) rejected.
Proof.
  intros G W. induction 1 as [ds v r r' E T|ds c r r1 rejected v r' E T _ IH]; intros D; constructor.
  - intros P. destruct (G width ds _ _ ltac:(lia) D E) as [O D1]. pose proof (trial_prime _ _ _ _ _ _ _ G W O T D1 P). discriminate.
  - apply IH. destruct (G width ds _ _ ltac:(lia) D E) as [O D1]. apply (trial_draws _ _ _ _ _ _ _ G T D1).
Qed.

(** rand_r gives 31 bits, so the top bit of every limb below the last is never set. *)
Lemma fill_limbs_small n : forall ds body ds', fill_limbs n ds = Some (body, ds') -> draws ds -> Forall (fun x => x < 2 ^ 31) body.
Proof.
  induction n as [|n IH]; intros ds body ds' E D; cbn [fill_limbs] in E.
  - injection E as <- <-. constructor.
  - destruct ds as [|d ds]; [discriminate|]. cbn [draw obind fst snd] in E. inversion D as [|? ? Dd Dr]; subst.
    destruct (fill_limbs n ds) as [[b r]|] eqn:F; [|discriminate]. cbn [obind fst snd] in E. injection E as <- <-. constructor; [|exact (IH _ _ _ F Dr)].
    change 4294967295 with (N.ones 32). rewrite N.land_ones. rewrite N.mod_small; [exact Dd|]. apply N.lt_trans with (2 ^ 31); [exact Dd|reflexivity].
Qed.

Lemma bit31 x : x < 2 ^ 31 -> N.testbit x 31 = false.
Proof. intros H. rewrite <- (N.mod_small x (2 ^ 31) H). apply N.mod_pow2_bits_high. lia. Qed.

Lemma random_prime_gaps width ds b ds' i : draws ds -> random_prime width ds = Some (b, ds') -> 32 * i + 32 < width ->
  N.testbit (mag b) (32 * i + 31) = false.
Proof.
  intros D E Hi. assert (W2 : 2 <= width) by lia. destruct (random_prime_ok _ _ _ _ W2 D E) as (Wb & _). apply wf_wfp in Wb.
  unfold mag. rewrite testbit_val by (apply wf_limbs; exact Wb). clear Wb.
  replace ((32 * i + 31) / 32) with i by (rewrite N.mul_comm, N.div_add_l by discriminate; change (31 / 32) with 0; lia).
  replace ((32 * i + 31) mod 32) with 31 by (rewrite N.add_comm, N.mul_comm, N.mod_add by discriminate; reflexivity).
  unfold random_prime in E. cbv zeta in E.
  destruct (Nat.ltb_spec SIZE (N.to_nat (width / 32))) as [|S0]; [discriminate|].
  destruct (fill_limbs (N.to_nat (width / 32)) ds) as [[body ds1]|] eqn:F; [|discriminate]. cbn [obind] in E.
  destruct (fill_limbs_ok _ _ _ _ F D) as (Lb & _ & _). pose proof (fill_limbs_small _ _ _ _ F D) as Sm.
  assert (Wd : width = 32 * (width / 32) + width mod 32) by (apply N.div_mod'; discriminate).
  assert (Off : width mod 32 < 32) by (apply N.mod_lt; discriminate).
  assert (Key : forall pre t post, Forall (fun x => x < 2 ^ 31) pre -> (N.to_nat i < length pre)%nat -> N.testbit (nth (N.to_nat i) (set_low (pre ++ [t]) ++ post) 0) 31 = false).
  { intros pre t post Fp Lp. destruct pre as [|y pre]; [cbn [length] in Lp; lia|]. inversion Fp as [|? ? Hy Hp]; subst. cbn [set_low app].
    destruct (N.to_nat i) as [|j]; cbn [nth].
    - rewrite N.lor_spec, (bit31 _ Hy). reflexivity.
    - cbn [length] in Lp. rewrite app_nth1 by (rewrite app_length; lia). rewrite app_nth1 by lia. apply bit31.
      apply (proj1 (Forall_forall _ _) Hp). apply nth_In. lia. }
  destruct (N.eqb_spec (width mod 32) 0) as [O|O]; cbn [negb] in E.
  - destruct (N.to_nat (width / 32)) as [|k] eqn:K; [exfalso; clear - K O Wd W2; lia|].
    assert (Lk : length (firstn k body) = k) by (apply firstn_length_le; lia).
    assert (X : forall c : N * list N, Some (mkBn false (S k) (set_low (firstn k body ++ [N.lor (fst c) 2147483648]) ++ zeros (SIZE - S k)), snd c) = Some (b, ds') -> N.testbit (nth (N.to_nat i) (dat b) 0) 31 = false).
    { intros c E2. injection E2 as <- _. cbn [dat]. apply Key; [|rewrite Lk; clear - Hi Wd O K; lia].
      apply Forall_forall. intros y Hy. apply (proj1 (Forall_forall _ _) Sm). rewrite <- (firstn_skipn k body). apply in_or_app. left. exact Hy. }
    destruct (nth k body 0 =? 0); [destruct (draw ds1) as [c|]; [|discriminate]|]; apply (X _ E).
  - destruct (Nat.leb_spec SIZE (N.to_nat (width / 32))) as [|S1]; [discriminate|].
    destruct (draw ds1) as [c|]; [|discriminate]. cbn [obind fst snd] in E. injection E as <- _. cbn [dat]. apply Key; [exact Sm|]. rewrite Lb. clear - Hi Wd Off. lia.
Qed.

Lemma prime_loop_gaps fuel : forall width ds p ds' i, 3 <= width -> width <= 4112 -> draws ds -> prime_loop fuel width ds = Some (p, ds') -> 32 * i + 32 < width ->
  N.testbit (mag p) (32 * i + 31) = false.
Proof.
  induction fuel as [|f IH]; intros width ds p ds' i W3 W4 D E Hi; cbn [prime_loop] in E; [discriminate|].
  destruct (random_prime width ds) as [[c r]|] eqn:R; [|discriminate]. cbn [obind fst snd] in E.
  destruct (random_prime_ok width ds c r ltac:(clear - W3; lia) D R) as (Wc & Nc & Oc & D1).
  destruct (bn_abs_compare c bn_one) as [z|]; [|discriminate]. cbn [obind] in E. destruct (z <=? 0)%Z; [apply (IH _ _ _ _ _ W3 W4 D1 E Hi)|].
  destruct (try_bases _ width c r) as [[ok r1]|] eqn:T; [|discriminate]. cbn [obind fst snd] in E.
  destruct (try_bases_trial width c W3 W4 Wc Nc Oc _ _ _ _ D1 T) as [_ D2]. destruct ok.
  - injection E as <- _. apply (random_prime_gaps _ _ _ _ _ D R Hi).
  - apply (IH _ _ _ _ _ W3 W4 D2 E Hi).
Qed.

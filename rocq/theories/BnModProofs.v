Require Import List Arith NArith ZArith Lia Bool.
Require Import ZifyBool ZifyNat ZifyN.
Require Import Verif.Base Verif.BnModel Verif.BnSpec Verif.BnLimbProofs Verif.BnAddProofs Verif.BnMulProofs
  Verif.BnDivProofs Verif.BnShiftProofs Verif.BnProofs Verif.BnTextModel Verif.BnTextProofs Verif.BnModModel.
Import ListNotations.
Open Scope N_scope.

(** ** Bits of the exponent *)
Lemma high_bit_ok e : wfp e -> forall k, N.of_nat k <= 8224 -> mag e < 2 ^ N.of_nat k ->
  match high_bit k e with
  | Some (Some i) => mag e / 2 ^ N.of_nat i = 1 /\ (i < k)%nat
  | Some None => mag e = 0
  | None => False
  end.
Proof.
  intros He. induction k as [|k IH]; intros Hk Hm; cbn [high_bit].
  - change (2 ^ N.of_nat 0) with 1 in Hm. clear - Hm. lia.
  - rewrite bit_test_core_ok by (auto; clear - Hk; lia). cbn [obind].
    rewrite Nat2N.inj_succ, N.pow_succ_r' in Hm.
    destruct (N.testbit (mag e) (N.of_nat k)) eqn:T.
    + split; [|lia]. assert (Q : mag e / 2 ^ N.of_nat k < 2).
      { apply N.div_lt_upper_bound; [apply pow2_nz|]. rewrite N.mul_comm. exact Hm. }
      rewrite N.testbit_eqb in T. apply N.eqb_eq in T. revert Q T. generalize (mag e / 2 ^ N.of_nat k). clear. intros z Q T.
      assert (z = 0 \/ z = 1) by lia. destruct H as [->| ->]; [discriminate|reflexivity].
    + assert (L : mag e < 2 ^ N.of_nat k).
      { rewrite N.testbit_eqb in T. apply N.eqb_neq in T.
        destruct (N.lt_ge_cases (mag e) (2 ^ N.of_nat k)) as [L|L]; [exact L|]. exfalso. apply T.
        assert (mag e / 2 ^ N.of_nat k = 1); [|rewrite H; reflexivity].
        symmetry. apply N.div_unique with (mag e - 2 ^ N.of_nat k); revert Hm L; generalize (2 ^ N.of_nat k); clear; intros; lia. }
      specialize (IH ltac:(clear - Hk; lia) L). destruct (high_bit k e) as [[i|]|]; auto. split; [apply IH|]. destruct IH. lia.
Qed.

Lemma shift_bit a i : a / 2 ^ N.of_nat i = 2 * (a / 2 ^ N.of_nat (S i)) + (if N.testbit a (N.of_nat i) then 1 else 0).
Proof.
  rewrite Nat2N.inj_succ, N.pow_succ_r', (N.mul_comm 2 (2 ^ N.of_nat i)), <- N.div_div by (try apply pow2_nz; lia).
  rewrite N.testbit_eqb. generalize (a / 2 ^ N.of_nat i). clear. intros z.
  destruct (N.eqb_spec (z mod 2) 1); cbv iota; lia.
Qed.

(** ** Powers modulo a number *)
Lemma long_div_ok d m : wfp d -> wfp m -> mag m <> 0 -> fits (mag m * mag m) -> mag d < mag m * mag m ->
  (len d < 257)%nat \/ nth (len m - 1) (dat m) 0 < 2 ^ 31 \/ (len m < 2)%nat.
Proof.
  intros Hd Hm M0 F L. change (2 ^ 31) with 2147483648.
  destruct (Nat.lt_ge_cases (len d) 257) as [A|A]; [left; exact A|right; left].
  destruct (N.lt_ge_cases (nth (len m - 1) (dat m) 0) 2147483648) as [B|B]; [exact B|exfalso].
  (* the dividend has 257 limbs, so the modulus has at least 129, and its square does not fit *)
  assert (Ed : len d = 257%nat) by (pose proof (wf_len _ Hd); unfold SIZE in *; lia).
  assert (Hlm : (0 < len m)%nat) by (destruct (Nat.eq_dec (len m) 0) as [Z|Z]; [apply (mag_0 m Hm) in Z; congruence|lia]).
  assert (Gm : P (len m - 1) * 2147483648 <= mag m).
  { pose proof (wf_size _ Hm) as Sm. pose proof (wf_len _ Hm).
    destruct (nth_error_lt (dat m) (len m - 1)) as [x Ex]; [lia|]. rewrite (nth_error_nth _ _ _ Ex) in B.
    pose proof (nth_le_val _ _ _ Ex) as V. fold (mag m) in V. eapply N.le_trans; [|exact V]. apply N.mul_le_mono_l. exact B. }
  pose proof (mag_ge d Hd) as Gd. rewrite Ed in Gd. specialize (Gd ltac:(lia)). change (257 - 1)%nat with 256%nat in Gd.
  pose proof (mag_lt m Hm) as Um. unfold fits in F. rewrite <- P_fits in F. change SIZE with 257%nat in F.
  assert (U2 : P 256 < P (len m + len m)).
  { rewrite P_add. eapply N.le_lt_trans; [exact Gd|]. eapply N.lt_trans; [exact L|]. apply N.mul_lt_mono; exact Um. }
  apply P_le_inv in U2. assert (Hl : (129 <= len m)%nat) by (clear - U2; lia).
  assert (L2 : P (len m - 1) * 2147483648 * (P (len m - 1) * 2147483648) < P 257).
  { eapply N.le_lt_trans; [apply N.mul_le_mono; exact Gm|]. exact F. }
  assert (L3 : P 128 * 2147483648 * (P 128 * 2147483648) < P 257).
  { eapply N.le_lt_trans; [|exact L2]. apply N.mul_le_mono; apply N.mul_le_mono_r, P_mono; clear - Hl; lia. }
  clear - L3. revert L3. replace (P 128 * 2147483648 * (P 128 * 2147483648)) with (P 256 * (2147483648 * 2147483648)).
  2:{ change 256%nat with (128 + 128)%nat. rewrite P_add. generalize (P 128). clear. intros; lia. }
  replace (P 257) with (BB * P 256) by (symmetry; exact (P_S 256)). pose proof (P_pos 256) as P1. revert P1. generalize (P 256).
  clear. intros n H1 H2. assert (4294967296 * n < n * (2147483648 * 2147483648)) by lia. lia.
Qed.

Lemma mag_value b : (0 <= value b)%Z -> value b = Z.of_N (mag b).
Proof. rewrite <- (abs_value b). intros. rewrite N2Z.inj_abs_N. lia. Qed.

Lemma reduce_ok d m : wf d -> wf m -> (0 < value m)%Z -> fits (mag m * mag m) -> (0 <= value d < value m * value m)%Z ->
  exists r, reduce d m = Some (Some r) /\ wf r /\ value r = (value d mod value m)%Z.
Proof.
  intros Hd Hm M0 F L. pose proof (mag_value m ltac:(clear - M0; lia)) as Em. pose proof (mag_value d ltac:(clear - L; lia)) as Ed.
  pose proof (proj1 (wf_wfp d) Hd) as Wd. pose proof (proj1 (wf_wfp m) Hm) as Wm.
  unfold reduce. destruct (Nat.leb_spec (len m) (len d)) as [G|G].
  - destruct (div_value d m Hd Hm M0) as (r & q & E & Wr & Wq & Vq & Vr).
    { apply long_div_ok; auto; [|]; clear F; lia. }
    rewrite E. exists r. split; [reflexivity|]. split; [exact Wr|]. rewrite Vr. apply Z.rem_mod_nonneg; clear F; lia.
  - exists d. split; [reflexivity|]. split; [exact Hd|]. pose proof (len_lt_mag d m Wd Wm G). symmetry. apply Z.mod_small. clear F; lia.
Qed.

Lemma mul_wf d s : wf d -> wf s -> fits (mag d * mag s) ->
  exists r, bn_mul d s = Some r /\ wf r /\ value r = (value d * value s)%Z.
Proof.
  intros Hd Hs F. destruct (mul_value d s) as (r & E & W & V); try (apply wf_wfp; assumption).
  - rewrite Zabs2N.inj_mul, !abs_value. exact F.
  - exists r. split; [exact E|]. split; [apply wf_wfp; exact W|exact V].
Qed.
Lemma mul_small d s m : wf d -> wf s -> fits (mag m * mag m) -> (0 <= value d < value m)%Z -> (0 <= value s < value m)%Z ->
  exists r, bn_mul d s = Some r /\ wf r /\ value r = (value d * value s)%Z /\ (0 <= value r < value m * value m)%Z.
Proof.
  intros Hd Hs F Bd Bs. destruct (mul_wf d s Hd Hs) as (r & E & W & V).
  - eapply fits_le; [|exact F]. apply N.mul_le_mono.
    + pose proof (mag_value d). pose proof (mag_value m). clear F. lia.
    + pose proof (mag_value s). pose proof (mag_value m). clear F. lia.
  - exists r. split; [exact E|]. split; [exact W|]. split; [exact V|]. rewrite V. clear - Bd Bs. nia.
Qed.

Lemma pwr_mod_loop_ok x e m : wf x -> wf e -> wf m -> (0 < value m)%Z -> fits (mag m * mag m) -> (0 <= value x < value m)%Z ->
  forall k dest, N.of_nat k <= 8224 -> wf dest -> (0 <= value dest < value m)%Z ->
  value dest = (value x ^ Z.of_N (mag e / 2 ^ N.of_nat k) mod value m)%Z ->
  exists r, pwr_mod_loop k x e m dest = Some (Some r) /\ wf r /\ value r = (value x ^ Z.of_N (mag e) mod value m)%Z.
Proof.
  intros Hx He Hm M0 F Bx. induction k as [|k IH]; intros dest Hk Hd Bd V; cbn [pwr_mod_loop].
  - exists dest. split; [reflexivity|]. split; [exact Hd|]. rewrite V. change (2 ^ N.of_nat 0) with 1. rewrite N.div_1_r. reflexivity.
  - destruct (mul_small dest dest m Hd Hd F Bd Bd) as (d1 & E1 & W1 & V1 & B1). rewrite E1. cbn [obind].
    destruct (reduce_ok d1 m W1 Hm M0 F B1) as (d2 & E2 & W2 & V2). rewrite E2. cbn [obind].
    rewrite bit_test_core_ok by (try (apply wf_wfp; exact He); clear - Hk; lia). cbn [obind].
    pose proof (shift_bit (mag e) k) as SB.
    assert (B2 : (0 <= value d2 < value m)%Z) by (rewrite V2; apply Z.mod_pos_bound; exact M0).
    set (h := mag e / 2 ^ N.of_nat (S k)) in *.
    assert (V2' : value d2 = (value x ^ Z.of_N (2 * h) mod value m)%Z).
    { rewrite V2, V1, V. rewrite <- Z.mul_mod by (clear - M0; lia). f_equal.
      rewrite <- Z.pow_add_r by (clear; lia). f_equal. clear. lia. }
    destruct (N.testbit (mag e) (N.of_nat k)).
    + destruct (mul_small d2 x m W2 Hx F B2 Bx) as (d3 & E3 & W3 & V3 & B3). rewrite E3. cbn [obind].
      destruct (reduce_ok d3 m W3 Hm M0 F B3) as (d4 & E4 & W4 & V4). rewrite E4. cbn [obind].
      apply IH; [clear - Hk; lia|exact W4|rewrite V4; apply Z.mod_pos_bound; exact M0|].
      rewrite V4, V3, V2', SB. rewrite Z.mul_mod_idemp_l by (clear - M0; lia). f_equal.
      rewrite N2Z.inj_add. change (Z.of_N 1) with 1%Z. rewrite Z.pow_add_r, Z.pow_1_r by (clear; lia). reflexivity.
    + apply IH; [clear - Hk; lia|exact W2|exact B2|]. rewrite SB, N.add_0_r. exact V2'.
Qed.

Lemma high_bit_len e : wf e ->
  match high_bit (len e * 32) e with
  | Some (Some i) => mag e / 2 ^ N.of_nat i = 1 /\ N.of_nat i < 8224
  | Some None => mag e = 0
  | None => False
  end.
Proof.
  intros He. apply wf_wfp in He. pose proof (wf_len _ He) as L. unfold SIZE in L.
  pose proof (high_bit_ok e He (len e * 32)) as H.
  assert (H1 : N.of_nat (len e * 32) <= 8224) by (clear - L; lia).
  assert (H2 : mag e < 2 ^ N.of_nat (len e * 32)).
  { pose proof (mag_lt e He) as M. unfold P in M. change BB with (2 ^ 32) in M. rewrite <- N.pow_mul_r in M.
    replace (N.of_nat (len e * 32)) with (32 * N.of_nat (len e)) by (clear; lia). exact M. }
  specialize (H H1 H2). destruct (high_bit (len e * 32) e) as [[i|]|]; auto. destruct H as [H H3]. split; [exact H|]. clear - H3 H1. lia.
Qed.

Lemma one_value : value bn_one = 1%Z.
Proof. unfold value. rewrite mag_one. reflexivity. Qed.

Lemma pwr_mod_ok x e m : wf x -> wf e -> wf m -> neg e = false -> (1 < value m)%Z -> fits (mag m * mag m) -> (0 <= value x < value m)%Z ->
  exists r, bn_pwr x e (Some m) = Some (Some r) /\ wf r /\ value r = (value x ^ value e mod value m)%Z.
Proof.
  intros Hx He Hm Ne M1 F Bx. unfold bn_pwr. rewrite Ne.
  assert (Ve : value e = Z.of_N (mag e)) by (unfold value; rewrite Ne; reflexivity). rewrite Ve.
  pose proof (high_bit_len e He) as H. destruct (high_bit (len e * 32) e) as [[i|]|]; [| |contradiction]; cbn [obind].
  - destruct H as [H Hi]. apply pwr_mod_loop_ok; auto; [clear - M1; lia|clear - Hi; lia|].
    rewrite H. change (Z.of_N 1) with 1%Z. rewrite Z.pow_1_r. symmetry. apply Z.mod_small. exact Bx.
  - exists bn_one. split; [reflexivity|]. split; [apply wf_wfp, wfp_one|]. rewrite H, one_value. change (Z.of_N 0) with 0%Z. rewrite Z.pow_0_r.
    symmetry. apply Z.mod_small. clear - M1. lia.
Qed.

(** ** Powers *)
Lemma pow_le_fits x a b : a <= b -> fits (x ^ b) -> (a = 0 -> b = 0) -> fits (x ^ a).
Proof.
  intros L F H0. destruct (N.eq_dec x 0) as [->|X].
  - destruct (N.eq_dec a 0) as [A|A]; [rewrite (H0 A) in F; rewrite A; exact F|]. rewrite N.pow_0_l by auto. reflexivity.
  - eapply fits_le; [|exact F]. apply N.pow_le_mono_r; auto.
Qed.
Lemma abs_pow x k : mag x ^ k = Z.abs_N (value x ^ Z.of_N k).
Proof.
  rewrite Zabs2N.inj_pow by (clear; lia). rewrite abs_value, Zabs2N.id. reflexivity.
Qed.

Lemma pwr_loop_ok x e : wf x -> wf e -> fits (mag x ^ mag e) ->
  forall k dest, N.of_nat k <= 8224 -> wf dest -> mag e / 2 ^ N.of_nat k <> 0 -> value dest = (value x ^ Z.of_N (mag e / 2 ^ N.of_nat k))%Z ->
  exists r, pwr_loop k x e dest = Some (Some r) /\ wf r /\ value r = (value x ^ Z.of_N (mag e))%Z.
Proof.
  intros Hx He F. induction k as [|k IH]; intros dest Hk Hd H0 V; cbn [pwr_loop].
  - exists dest. split; [reflexivity|]. split; [exact Hd|]. rewrite V. change (2 ^ N.of_nat 0) with 1. rewrite N.div_1_r. reflexivity.
  - pose proof (shift_bit (mag e) k) as SB.
    assert (LE : mag e / 2 ^ N.of_nat k <= mag e) by (apply N.div_le_upper_bound; [apply pow2_nz|]; pose proof (pow2_pos (N.of_nat k)); revert H; generalize (2 ^ N.of_nat k); clear; intros; nia).
    set (h := mag e / 2 ^ N.of_nat (S k)) in *.
    assert (Md : mag dest = mag x ^ h) by (rewrite abs_pow, <- V, abs_value; reflexivity).
    destruct (mul_wf dest dest Hd Hd) as (d1 & E1 & W1 & V1).
    { rewrite Md, <- N.pow_add_r. eapply pow_le_fits; [|exact F|]; clear - SB LE H0; destruct (N.testbit (mag e) (N.of_nat k)); lia. }
    rewrite E1. cbn [obind]. rewrite bit_test_core_ok by (try (apply wf_wfp; exact He); clear - Hk; lia). cbn [obind].
    assert (V1' : value d1 = (value x ^ Z.of_N (2 * h))%Z).
    { rewrite V1, V. rewrite <- Z.pow_add_r by (clear; lia). f_equal. clear. lia. }
    destruct (N.testbit (mag e) (N.of_nat k)).
    + destruct (mul_wf d1 x W1 Hx) as (d3 & E3 & W3 & V3).
      { assert (M1 : mag d1 = mag x ^ (2 * h)) by (rewrite abs_pow, <- V1', abs_value; reflexivity). rewrite M1.
        replace (mag x ^ (2 * h) * mag x) with (mag x ^ (2 * h + 1)) by (rewrite N.pow_add_r, N.pow_1_r; reflexivity).
        eapply pow_le_fits; [|exact F|]; clear - SB LE H0; lia. }
      rewrite E3. cbn [obind]. apply IH; [clear - Hk; lia|exact W3|clear - SB H0; lia|].
      rewrite V3, V1', SB, N2Z.inj_add. change (Z.of_N 1) with 1%Z. rewrite Z.pow_add_r, Z.pow_1_r by (clear; lia). reflexivity.
    + apply IH; [clear - Hk; lia|exact W1|clear - SB H0; lia|]. rewrite SB, N.add_0_r. exact V1'.
Qed.

Lemma pwr_ok x e : wf x -> wf e -> neg e = false -> fits (mag x ^ mag e) ->
  exists r, bn_pwr x e None = Some (Some r) /\ wf r /\ value r = (value x ^ value e)%Z.
Proof.
  intros Hx He Ne F. unfold bn_pwr. rewrite Ne.
  assert (Ve : value e = Z.of_N (mag e)) by (unfold value; rewrite Ne; reflexivity). rewrite Ve.
  pose proof (high_bit_len e He) as H. destruct (high_bit (len e * 32) e) as [[i|]|]; [| |contradiction]; cbn [obind].
  - destruct H as [H Hi]. apply pwr_loop_ok; auto; [clear - Hi; lia|rewrite H; discriminate|].
    rewrite H. change (Z.of_N 1) with 1%Z. rewrite Z.pow_1_r. reflexivity.
  - exists bn_one. split; [reflexivity|]. split; [apply wf_wfp, wfp_one|]. rewrite H, one_value. reflexivity.
Qed.

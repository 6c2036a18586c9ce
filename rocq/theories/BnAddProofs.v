Require Import List Arith NArith ZArith Lia Bool.
Require Import ZifyBool ZifyNat ZifyN.
Require Import Verif.Base Verif.BnModel Verif.BnSpec Verif.BnLimbProofs.
Import ListNotations.
Open Scope N_scope.

Ltac side := try (rewrite ?wf_size by assumption); try (apply wf_limbs; assumption); try assumption; try lia.

Lemma max_len_limbs d s : wfp d -> wfp s ->
  exists limbs c n, (if (len d <? len s)%nat then add_limbs (len s) (dat s) (dat d) 0 else add_limbs (len d) (dat d) (dat s) 0)
    = Some (limbs, c) /\ n = Nat.max (len d) (len s) /\ length limbs = n /\ BnLimbProofs.limbs limbs /\ c <= 1 /\
    val limbs + c * P n = mag d + mag s.
Proof.
  intros Hd Hs. pose proof (wf_len _ Hd). pose proof (wf_len _ Hs).
  destruct (Nat.ltb_spec (len d) (len s)) as [L|L].
  - destruct (add_limbs_ok (len s) (dat s) (dat d) 0) as (r & c & E & Hr & Lr & Hc & V); side.
    exists r, c, (len s). rewrite E. repeat split; auto; [lia|].
    rewrite V, (mag_firstn_ge d (len s)), (mag_firstn s) by (auto; lia). lia.
  - destruct (add_limbs_ok (len d) (dat d) (dat s) 0) as (r & c & E & Hr & Lr & Hc & V); side.
    exists r, c, (len d). rewrite E. repeat split; auto; [lia|].
    rewrite V, (mag_firstn_ge s (len d)), (mag_firstn d) by (auto; lia). lia.
Qed.

Lemma skipn_zeros k m : skipn k (zeros m) = zeros (m - k).
Proof. unfold zeros. revert m; induction k as [|k IH]; intros [|m]; cbn; auto. Qed.
Lemma skipn_high b n : wfp b -> (len b <= n)%nat -> skipn n (dat b) = zeros (SIZE - n).
Proof.
  intros H Hn. replace n with (len b + (n - len b))%nat at 1 by lia.
  rewrite <- skipn_plus, (wf_high _ H), skipn_zeros. f_equal. lia.
Qed.

Lemma sum_ok d s : wfp d -> wfp s ->
  exists r, bn_sum d s = Some r /\ neg r = neg d /\ mag r = (mag d + mag s) mod 2 ^ 8224 /\
    (fits (mag d + mag s) -> wfp r).
Proof.
  intros Hd Hs. pose proof (wf_len _ Hd) as Ld. pose proof (wf_len _ Hs) as Ls.
  destruct (max_len_limbs d s Hd Hs) as (l & c & n & E & Hn & Hl & Ll & Hc & V).
  unfold bn_sum. rewrite E. cbn [obind]. rewrite Hl. clear E.
  assert (Hn' : (n <= SIZE)%nat) by lia.
  assert (Hsk : skipn n (dat d) = zeros (SIZE - n)) by (apply skipn_high; auto; lia).
  assert (Hov : overlay l (dat d) = l ++ zeros (SIZE - n)) by (unfold overlay; rewrite Hl, Hsk; reflexivity).
  rewrite Hov. pose proof (val_bound _ Ll) as Bl. rewrite Hl in Bl.
  assert (Pn : P n <= P SIZE) by (apply P_mono; auto).
  assert (Hge : n = 0%nat \/ P (n - 1) <= mag d + mag s).
  { destruct (Nat.eq_dec n 0) as [|Hz]; auto. right.
    destruct (Nat.max_spec (len d) (len s)) as [[M1 M2]|[M1 M2]]; rewrite M2 in Hn; subst n.
    - pose proof (mag_ge s Hs). lia.
    - pose proof (mag_ge d Hd). lia. }
  destruct (N.eqb_spec c 0) as [->|Hc0]; cbn [negb andb].
  - eexists. split; [reflexivity|]. cbn [neg]. split; auto.
    assert (Vd : val (l ++ zeros (SIZE - n)) = mag d + mag s) by (rewrite val_app, val_zeros; lia).
    split.
    + unfold mag at 1. cbn [dat]. rewrite Vd. symmetry. apply N.mod_small. rewrite <- P_fits. lia.
    + intros _. apply wfp_mk; auto.
      * rewrite app_length, zeros_length. lia.
      * apply limbs_app. split; auto using limbs_zeros.
      * rewrite Vd. lia.
      * rewrite Vd. exact Hge.
  - assert (c = 1) by lia. subst c.
    destruct (Nat.ltb_spec n SIZE) as [L|L].
    + assert (Hz : l ++ zeros (SIZE - n) = l ++ 0 :: zeros (SIZE - S n)).
      { f_equal. unfold zeros. replace (SIZE - n)%nat with (S (SIZE - S n)) by lia. reflexivity. }
      rewrite Hz. rewrite nth_error_app2 by lia. rewrite Hl, Nat.sub_diag. cbn [nth_error obind].
      unfold store. rewrite app_length. cbn [length]. rewrite zeros_length, Hl.
      replace ((n <? n + S (SIZE - S n))%nat) with true by (symmetry; apply Nat.ltb_lt; lia). cbn [obind].
      rewrite upd_app2 by lia. rewrite Hl, Nat.sub_diag. cbn [upd]. change (w64 (0 + 1)) with 1.
      eexists. split; [reflexivity|]. cbn [neg]. split; auto.
      assert (Vd : val (l ++ 1 :: zeros (SIZE - S n)) = mag d + mag s).
      { rewrite val_app, val_cons, val_zeros, Hl. lia. }
      assert (PS : P (S n) <= P SIZE) by (apply P_mono; lia). rewrite P_S in PS.
      split.
      * unfold mag at 1. cbn [dat]. rewrite Vd. symmetry. apply N.mod_small. rewrite <- P_fits. lia.
      * intros _. apply wfp_mk.
        -- rewrite app_length. cbn [length]. rewrite zeros_length. lia.
        -- apply limbs_app. split; auto. constructor; [reflexivity|apply limbs_zeros].
        -- lia.
        -- rewrite Vd, P_S. lia.
        -- right. rewrite Vd. replace (S n - 1)%nat with n by lia. lia.
    + assert (Hns : n = SIZE) by lia. rewrite Hns in *. rewrite Nat.sub_diag. cbn [zeros repeat]. rewrite app_nil_r.
      eexists. split; [reflexivity|]. cbn [neg]. split; auto. split.
      * unfold mag at 1. cbn [dat]. apply (N.mod_unique _ _ 1); rewrite <- P_fits; lia.
      * unfold fits. rewrite <- P_fits. lia.
Qed.

Lemma sub_core_ok d s : wfp d -> wfp s -> mag s <= mag d ->
  exists r, bn_sub_core d s = Some r /\ neg r = neg d /\ mag r = mag d - mag s /\ wfp r.
Proof.
  intros Hd Hs Hle. pose proof (wf_len _ Hd) as Ld. pose proof (wf_len _ Hs) as Ls.
  destruct (sub_limbs_ok (len d) (dat d) (dat s) 0) as (l & c & E & Hl & Ll & Hc & V); side.
  assert (Hlen : (len s <= len d)%nat).
  { destruct (le_lt_dec (len s) (len d)); auto. pose proof (len_lt_mag d s Hd Hs l0). lia. }
  rewrite <- mag_firstn, <- (mag_firstn_ge s) in V by auto.
  pose proof (val_bound _ Ll) as Bl. rewrite Hl in Bl. pose proof (mag_lt d Hd).
  assert (c = 0) by (assert (C : c = 0 \/ c = 1) by lia; destruct C as [->| ->]; lia). subst c.
  unfold bn_sub_core. rewrite E. cbn [obind]. change (0 =? 0) with true. cbn [obind].
  assert (Hov : overlay l (dat d) = l ++ zeros (SIZE - len d)) by (unfold overlay; rewrite Hl, (wf_high _ Hd); reflexivity).
  rewrite Hov.
  assert (Hlen' : length (l ++ zeros (SIZE - len d)) = SIZE) by (rewrite app_length, zeros_length; lia).
  assert (Hval : val (l ++ zeros (SIZE - len d)) = mag d - mag s) by (rewrite val_app, val_zeros; lia).
  assert (Hlimbs : limbs (l ++ zeros (SIZE - len d))) by (apply limbs_app; split; auto using limbs_zeros).
  destruct (top_ok (len d) (l ++ zeros (SIZE - len d))) as (k & Ek & _); [lia|].
  rewrite Ek. cbn [obind]. eexists. split; [reflexivity|]. cbn [neg]. split; auto. split; auto.
  apply (wfp_top _ (len d)); auto. rewrite Hval. lia.
Qed.

Lemma abs_compare_ok a b : wfp a -> wfp b -> bn_abs_compare a b = Some (zcmp (Z.of_N (mag a)) (Z.of_N (mag b))).
Proof.
  intros Ha Hb. unfold bn_abs_compare, zcmp.
  destruct (Nat.eqb_spec (len a) (len b)) as [E|E]; cbn [negb].
  - destruct (Nat.eqb_spec (len a) 0) as [Z|Z].
    + rewrite (proj2 (mag_0 a Ha) Z), (proj2 (mag_0 b Hb)) by lia. reflexivity.
    + destruct (cmp_down_ok (len a) (dat a) (dat b)) as (z & E1 & ->); try (pose proof (wf_len a Ha)); side.
      rewrite E1. rewrite <- mag_firstn by auto. rewrite E, <- mag_firstn by auto. rewrite N2Z.inj_compare. reflexivity.
  - f_equal. destruct (Nat.ltb_spec (len b) (len a)) as [L|L].
    + pose proof (len_lt_mag b a Hb Ha L). destruct (Z.compare_spec (Z.of_N (mag a)) (Z.of_N (mag b))); lia.
    + pose proof (len_lt_mag a b Ha Hb). destruct (Z.compare_spec (Z.of_N (mag a)) (Z.of_N (mag b))); lia.
Qed.

Lemma compare_ok a b : wfp a -> wfp b -> neg a && neg b = false \/ len a <> len b \/ mag a = mag b ->
  bn_compare a b = Some (zcmp (value a) (value b)).
Proof.
  intros Ha Hb Hc. unfold bn_compare, zcmp, value.
  destruct (Nat.eqb_spec (len a) (len b)) as [E|E]; cbn [andb negb].
  - destruct (Nat.eqb_spec (len a) 0) as [Z|Z].
    + rewrite (proj2 (mag_0 a Ha) Z), (proj2 (mag_0 b Hb)) by lia. destruct (neg a), (neg b); reflexivity.
    + pose proof (mag_ge a Ha) as Ga. pose proof (mag_ge b Hb) as Gb. pose proof (P_pos (len a - 1)). pose proof (P_pos (len b - 1)).
      destruct (cmp_down_ok (len a) (dat a) (dat b)) as (z & E1 & ->); try (pose proof (wf_len a Ha)); side.
      rewrite E1. rewrite <- mag_firstn by auto. rewrite E, <- mag_firstn by auto.
      destruct (neg a), (neg b); cbn [xorb].
      * destruct Hc as [Hc|[Hc|Hc]]; [discriminate|lia|]. rewrite Hc, N.compare_refl, Z.compare_refl. reflexivity.
      * f_equal. destruct (Z.compare_spec (- Z.of_N (mag a)) (Z.of_N (mag b))); lia.
      * f_equal. destruct (Z.compare_spec (Z.of_N (mag a)) (- Z.of_N (mag b))); lia.
      * rewrite N2Z.inj_compare. reflexivity.
  - assert (Hlt : (len b < len a)%nat /\ mag b < mag a \/ (len a < len b)%nat /\ mag a < mag b).
    { destruct (Nat.lt_total (len a) (len b)) as [L|[L|L]]; [right|lia|left]; split; auto using len_lt_mag. }
    destruct (neg a), (neg b); cbn [xorb]; f_equal;
      destruct (Nat.ltb_spec (len b) (len a)); 
      match goal with |- _ = match (?x ?= ?y)%Z with _ => _ end => destruct (Z.compare_spec x y) end; lia.
Qed.

(** Subtraction of two numbers of the same sign. *)
Lemma diff_ok d s : wfp d -> wfp s -> neg d = neg s -> neg d = false \/ len d <> len s \/ mag d = mag s ->
  exists r, bn_diff d s = Some r /\ wfp r /\ value r = (value d - value s)%Z.
Proof.
  intros Hd Hs Hsg Hc. unfold bn_diff.
  rewrite compare_ok; auto.
  2:{ destruct Hc as [Hc|Hc]; auto. left. rewrite Hc. reflexivity. }
  cbn [obind]. unfold zcmp.
  destruct (Z.compare_spec (value d) (value s)) as [E|E|E]; cbn [Z.eqb Z.ltb Z.compare].
  - exists bn_zero. repeat split; try apply wf_wfp; try apply wfp_zero. change (value bn_zero) with 0%Z. lia.
  - unfold value in E. destruct (neg d) eqn:Nd; rewrite <- Hsg in E.
    + destruct (sub_core_ok (set_neg d false) (set_neg s false)) as (r & Er & Nr & Mr & Wr); auto using wfp_set_neg.
      { rewrite !mag_set_neg. lia. }
      rewrite Er. cbn [obind]. exists (set_neg r true). split; auto. split; [apply wfp_set_neg; auto|].
      unfold value. rewrite Nd, <- Hsg. cbn [neg set_neg]. rewrite !mag_set_neg in *. lia.
    + destruct (sub_core_ok s d) as (r & Er & Nr & Mr & Wr); auto; [lia|].
      rewrite Er. cbn [obind]. exists (set_neg r true). split; auto. split; [apply wfp_set_neg; auto|].
      unfold value. rewrite Nd, <- Hsg. cbn [neg set_neg]. rewrite !mag_set_neg in *. lia.
  - unfold value in E. destruct (neg d) eqn:Nd; rewrite <- Hsg in E.
    + destruct (sub_core_ok (set_neg s false) (set_neg d false)) as (r & Er & Nr & Mr & Wr); auto using wfp_set_neg.
      { rewrite !mag_set_neg. lia. }
      rewrite Er. cbn [obind]. exists (set_neg r false). split; auto. split; [apply wfp_set_neg; auto|].
      unfold value. rewrite Nd, <- Hsg. cbn [neg set_neg]. rewrite !mag_set_neg in *. lia.
    + destruct (sub_core_ok d s) as (r & Er & Nr & Mr & Wr); auto; [lia|].
      exists r. split; auto. split; auto. unfold value. rewrite Nr, Nd, <- Hsg. lia.
Qed.

Lemma abs_value b : Z.abs_N (value b) = mag b.
Proof. unfold value. destruct (neg b); lia. Qed.

Lemma add_ok d s : wfp d -> wfp s -> fits (Z.abs_N (value d + value s)) ->
  exists r, bn_add d s = Some r /\ wfp r /\ value r = (value d + value s)%Z.
Proof.
  intros Hd Hs Hf. unfold bn_add. destruct (neg d) eqn:Nd, (neg s) eqn:Ns; cbn [xorb].
  - destruct (sum_ok d s Hd Hs) as (r & E & Nr & Mr & Wr).
    assert (F : fits (mag d + mag s)).
    { unfold value in Hf. rewrite Nd, Ns in Hf. replace (mag d + mag s) with (Z.abs_N (- Z.of_N (mag d) + - Z.of_N (mag s))) by (clear; lia). exact Hf. }
    exists r. split; auto. split; auto. unfold value. rewrite Nr, Nd, Ns, Mr.
    rewrite N.mod_small by exact F. clear; lia.
  - destruct (diff_ok s (set_neg d false)) as (r & E & Wr & Vr); auto using wfp_set_neg.
    exists r. split; auto. split; auto. rewrite Vr. unfold value. cbn [neg set_neg]. rewrite mag_set_neg, Nd, Ns. clear; lia.
  - destruct (diff_ok d (set_neg s false)) as (r & E & Wr & Vr); auto using wfp_set_neg.
    exists r. split; auto. split; auto. rewrite Vr. unfold value. cbn [neg set_neg]. rewrite mag_set_neg, Nd, Ns. clear; lia.
  - destruct (sum_ok d s Hd Hs) as (r & E & Nr & Mr & Wr).
    assert (F : fits (mag d + mag s)).
    { unfold value in Hf. rewrite Nd, Ns in Hf. replace (mag d + mag s) with (Z.abs_N (Z.of_N (mag d) + Z.of_N (mag s))) by (clear; lia). exact Hf. }
    exists r. split; auto. split; auto. unfold value. rewrite Nr, Nd, Ns, Mr.
    rewrite N.mod_small by exact F. clear; lia.
Qed.

Lemma sub_ok d s : wfp d -> wfp s -> fits (Z.abs_N (value d - value s)) ->
  neg d && neg s = false \/ len d <> len s \/ mag d = mag s ->
  exists r, bn_sub d s = Some r /\ wfp r /\ value r = (value d - value s)%Z.
Proof.
  intros Hd Hs Hf Hc. unfold bn_sub. destruct (neg d) eqn:Nd, (neg s) eqn:Ns; cbn [xorb].
  - apply diff_ok; auto; [congruence|]. right. destruct Hc as [Hc|Hc]; [discriminate|auto].
  - destruct (sum_ok d (set_neg s true)) as (r & E & Nr & Mr & Wr); auto using wfp_set_neg.
    rewrite mag_set_neg in *.
    assert (F : fits (mag d + mag s)).
    { unfold value in Hf. rewrite Nd, Ns in Hf. replace (mag d + mag s) with (Z.abs_N (- Z.of_N (mag d) - Z.of_N (mag s))) by (clear; lia). exact Hf. }
    exists r. split; auto. split; auto. unfold value. rewrite Nr, Nd, Ns, Mr.
    rewrite N.mod_small by exact F. clear; lia.
  - destruct (sum_ok d (set_neg s false)) as (r & E & Nr & Mr & Wr); auto using wfp_set_neg.
    rewrite mag_set_neg in *.
    assert (F : fits (mag d + mag s)).
    { unfold value in Hf. rewrite Nd, Ns in Hf. replace (mag d + mag s) with (Z.abs_N (Z.of_N (mag d) - - Z.of_N (mag s))) by (clear; lia). exact Hf. }
    exists r. split; auto. split; auto. unfold value. rewrite Nr, Nd, Ns, Mr.
    rewrite N.mod_small by exact F. clear; lia.
  - apply diff_ok; auto; congruence.
Qed.

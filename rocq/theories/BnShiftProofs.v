Require Import List Arith NArith ZArith Lia Bool.
Require Import ZifyBool ZifyNat ZifyN.
Require Import Verif.Base Verif.BnModel Verif.BnSpec Verif.EndianProofs Verif.BnLimbProofs Verif.BnAddProofs Verif.BnMulProofs Verif.BnDivProofs.
Import ListNotations.
Open Scope N_scope.

Lemma mask32_mod x : mask32 x = x mod BB.
Proof. unfold mask32. change 4294967295 with (N.ones 32). rewrite N.land_ones. reflexivity. Qed.
Lemma pow_split off : off <= 32 -> BB = 2 ^ off * 2 ^ (32 - off).
Proof. intros H. rewrite <- N.pow_add_r. replace (off + (32 - off)) with 32 by lia. reflexivity. Qed.
Lemma pow2_pos k : 1 <= 2 ^ k.
Proof. pose proof (N.pow_nonzero 2 k). lia. Qed.
Lemma pow2_nz k : 2 ^ k <> 0.
Proof. apply N.pow_nonzero. lia. Qed.

(** Splitting a shifted limb into its low and high parts. *)
Lemma shl_split cur off : off <= 32 -> cur * 2 ^ off = (cur * 2 ^ off) mod BB + BB * (cur / 2 ^ (32 - off)).
Proof.
  intros H. rewrite (N.div_mod (cur * 2 ^ off) BB) at 1 by lia.
  assert (E : cur * 2 ^ off / BB = cur / 2 ^ (32 - off)).
  { rewrite (pow_split off H), (N.mul_comm (2 ^ off) (2 ^ (32 - off))). apply N.div_mul_cancel_r; apply pow2_nz. }
  rewrite E. lia.
Qed.
Lemma shl_low_mod cur off : off <= 32 -> ((cur * 2 ^ off) mod BB) mod 2 ^ off = 0.
Proof.
  intros H. rewrite (pow_split off H) at 1. rewrite (N.mul_comm cur), N.mul_mod_distr_l by apply pow2_nz.
  rewrite N.mul_comm. apply N.mod_mul. apply pow2_nz.
Qed.
Lemma limb_pow cur off : cur < BB -> off < 32 -> cur * 2 ^ off < W.
Proof.
  intros H Ho. assert (2 ^ off <= 2 ^ 31) by (apply N.pow_le_mono_r; lia). change (2 ^ 31) with 2147483648 in *.
  assert (cur * 2 ^ off <= 4294967295 * 2147483648) by (apply N.mul_le_mono; lia). lia.
Qed.
Lemma hi_lt cur off : cur < BB -> off <= 32 -> cur / 2 ^ (32 - off) < 2 ^ off.
Proof.
  intros H Ho. apply N.div_lt_upper_bound; [apply pow2_nz|]. rewrite N.mul_comm, <- pow_split by auto. exact H.
Qed.
Lemma mult_lt_gap a b p : a < p * b -> a mod b = 0 -> b <> 0 -> a + b <= p * b.
Proof.
  intros H M Hb. pose proof (N.div_mod a b Hb) as D. rewrite M, N.add_0_r in D.
  assert (a / b < p) by (apply N.div_lt_upper_bound; lia).
  rewrite D. replace (b * (a / b) + b) with ((a / b + 1) * b) by lia. apply N.mul_le_mono_r. lia.
Qed.

(** ** Left shift *)
Lemma store_app2 (a b : list N) i v : (length a <= i)%nat -> (i - length a < length b)%nat ->
  store (a ++ b) i v = Some (a ++ upd b (i - length a) v).
Proof.
  intros H1 H2. unfold store. rewrite app_length.
  rewrite (proj2 (Nat.ltb_lt _ _)) by lia. rewrite upd_app2 by auto. reflexivity.
Qed.
Lemma upd_last (l : list N) x v : exists m, upd (x :: l) (length l) v = m ++ [v] /\ length m = length l /\ (limbs (x :: l) -> limbs m).
Proof.
  exists (firstn (length l) (x :: l)). split; [|split].
  - revert x. induction l as [|y l IH]; intros x; [reflexivity|]. cbn [length upd firstn app]. f_equal. apply IH.
  - rewrite firstn_length_le; auto. cbn. lia.
  - apply limbs_firstn.
Qed.

(** lia after forgetting the hypotheses that mention division. *)
Ltac slia := repeat match goal with
  | H : context[N.modulo _ _] |- _ => clear H
  | H : context[N.div _ _] |- _ => clear H
  | x := _ : N |- _ => clearbody x end; lia.

Lemma lshift_loop_ok step off : off < 32 -> forall F M D last, limbs F -> limbs M -> limbs D -> length M = step ->
  (off <> 0 -> last = match D with [] => None | _ => Some (length F + step)%nat end) ->
  (hd 0 D) mod 2 ^ off = 0 ->
  exists M' D', lshift_loop (length F) step off (F ++ M ++ D) last = Some (M' ++ D') /\ length M' = step /\
    limbs M' /\ limbs D' /\ length D' = (length F + length D)%nat /\
    val D' = (2 ^ off * val F + P (length F) * val D) mod P (length F + length D).
Proof.
  intros Ho. induction F as [|cur F IH] using rev_ind; intros M D last LF LM LD HM Hlast Hhd.
  - exists M, D. cbn [length lshift_loop app Nat.add]. split; auto. split; auto. split; auto. split; auto. split; auto.
    rewrite val_nil, P_0, N.mul_0_r, N.add_0_l, N.mul_1_l. symmetry. apply N.mod_small. apply val_bound; auto.
  - apply limbs_app in LF. destruct LF as [LF Lc]. inversion Lc as [|? ? Hcur _]; subst. unfold limb in Hcur.
    rewrite app_length in *. cbn [length] in *. rewrite Nat.add_1_r in *. cbn [lshift_loop].
    rewrite <- !app_assoc. rewrite nth_error_app2 by slia. rewrite Nat.sub_diag. cbn [app nth_error obind].
    set (lo := (cur * 2 ^ off) mod BB). set (h := cur / 2 ^ (32 - off)).
    pose proof (shl_split cur off ltac:(slia)) as SS. fold lo h in SS.
    assert (Hlo : lo < BB) by (apply N.mod_lt; slia).
    assert (Hlo2 : lo mod 2 ^ off = 0) by (apply shl_low_mod; slia).
    assert (Hh : h < 2 ^ off) by (apply hi_lt; auto; slia).
    (* the limb above receives the high bits *)
    assert (HD : exists D1, limbs D1 /\ length D1 = length D /\
      val D1 = (match D with [] => 0 | _ => val D + h end) /\
      (off <> 0 -> or_at (F ++ cur :: M ++ D) last h = Some (F ++ cur :: M ++ D1)) /\ (off = 0 -> D1 = D)).
    { destruct D as [|x D].
      - exists []. repeat split; auto. intros H0. rewrite (Hlast H0). reflexivity.
      - exists (x + h :: D). inversion LD as [|? ? Hx LD']; subst. unfold limb in Hx. cbn [hd] in Hhd.
        assert (Hxh : x + 2 ^ off <= BB).
        { rewrite (pow_split off) by slia. rewrite (N.mul_comm (2 ^ off)). apply mult_lt_gap; auto using pow2_nz.
          rewrite N.mul_comm, <- pow_split by slia. exact Hx. }
        split; [constructor; auto; unfold limb; slia|]. split; [reflexivity|]. split; [rewrite !val_cons; slia|]. split.
        + intros H0. rewrite (Hlast H0). unfold or_at.
          replace (F ++ cur :: M ++ x :: D) with ((F ++ cur :: M) ++ x :: D) by (rewrite <- app_assoc; reflexivity).
          assert (HL : length (F ++ cur :: M) = (S (length F) + length M)%nat) by (rewrite app_length; cbn; slia).
          rewrite nth_error_app2 by slia. rewrite HL, Nat.sub_diag. cbn [nth_error obind].
          rewrite store_app2 by (cbn [length]; slia). rewrite HL, Nat.sub_diag. cbn [upd].
          rewrite <- app_assoc. rewrite (lor_add x h off) by auto. reflexivity.
        + intros ->. change (2 ^ 0) with 1 in *. f_equal. slia. }
    destruct HD as (D1 & LD1 & SD1 & VD1 & EO & EO0).
    destruct (upd_last M cur lo) as (M2 & EM & SM & LM2).
    assert (Est : store (F ++ cur :: M ++ D1) (length F + length M) lo = Some (F ++ M2 ++ lo :: D1)).
    { rewrite store_app2 by (try (rewrite app_comm_cons, app_length; cbn [length]); slia).
      replace (length F + length M - length F)%nat with (length M) by slia. rewrite app_comm_cons.
      rewrite upd_app1 by (cbn; slia). rewrite EM, <- app_assoc. reflexivity. }
    destruct (IH M2 (lo :: D1) (if off =? 0 then None else Some (length F + length M)%nat)) as (M' & D' & E' & S' & LM' & LD' & SD' & V'); auto.
    { apply LM2. constructor; auto. } { constructor; auto. }
    { intros H0. destruct (N.eqb_spec off 0); [congruence|reflexivity]. }
    exists M', D'. split; [|].
    + destruct (N.eqb_spec off 0) as [O0|O0].
      * rewrite <- (EO0 O0). assert (El : lo = cur) by (unfold lo; rewrite O0; change (2 ^ 0) with 1; rewrite N.mul_1_r; apply N.mod_small; exact Hcur).
        rewrite El in *. rewrite Est. cbn [obind]. exact E'.
      * rewrite mask32_mod, N.shiftr_div_pow2. fold h.
        rewrite (N.mod_small h) by (eapply N.lt_le_trans; [exact Hh|]; change BB with (2 ^ 32); apply N.pow_le_mono_r; slia).
        rewrite (EO O0). cbn [obind]. rewrite mask32_mod, N.shiftl_mul_pow2, w64_small by (apply limb_pow; auto).
        fold lo. rewrite Est. cbn [obind]. exact E'.
    + split; [exact S'|]. split; [exact LM'|]. split; [exact LD'|]. split; [rewrite SD'; cbn [length]; slia|].
      rewrite V'. cbn [length]. rewrite SD1. replace (length F + S (length D))%nat with (S (length F) + length D)%nat by slia.
      rewrite val_cons, VD1, val_app, val_cons, val_nil, P_S.
      destruct D as [|x D].
      * cbn [length]. rewrite Nat.add_0_r, P_S, val_nil.
        replace (2 ^ off * (val F + P (length F) * (cur + BB * 0)) + BB * P (length F) * 0)
          with (2 ^ off * val F + P (length F) * (lo + BB * 0) + h * (BB * P (length F))).
        2:{ rewrite N.mul_0_r, !N.add_0_r. replace (2 ^ off * (val F + P (length F) * cur)) with (2 ^ off * val F + P (length F) * (cur * 2 ^ off)) by slia.
            rewrite SS. slia. }
        rewrite N.mod_add; [reflexivity|]. pose proof (P_nz (length F)). slia.
      * f_equal. replace (2 ^ off * (val F + P (length F) * (cur + BB * 0)) + BB * P (length F) * val (x :: D))
          with (2 ^ off * val F + P (length F) * (cur * 2 ^ off + BB * val (x :: D))) by slia. rewrite SS. slia.
Qed.

Lemma left_shift_ok b n : wfp b -> n < 8224 ->
  exists r, bn_left_shift b n = Some r /\ wfp r /\ neg r = neg b /\ mag r = (mag b * 2 ^ n) mod 2 ^ 8224.
Proof.
  intros Hb Hn. pose proof (wf_len _ Hb) as Lb. unfold bn_left_shift.
  destruct (N.eqb_spec n 0) as [->|N0].
  { exists b. split; auto. split; auto. split; auto. change (2 ^ 0) with 1. rewrite N.mul_1_r. symmetry. apply N.mod_small. apply mag_fits; auto. }
  set (step := N.to_nat (n / 32)). set (off := n mod 32).
  assert (Ho : off < 32) by (apply N.mod_lt; slia).
  assert (Hst : (step < SIZE)%nat).
  { unfold step, SIZE. assert (n / 32 < 257) by (apply N.div_lt_upper_bound; slia). lia. }
  assert (En : 2 ^ n = P step * 2 ^ off).
  { unfold P, step, off. rewrite N2Nat.id. change BB with (2 ^ 32). rewrite <- N.pow_mul_r, <- N.pow_add_r.
    f_equal. apply N.div_mod. slia. }
  clearbody step off. rewrite (proj2 (Nat.leb_gt _ _) Hst).
  set (cnt := if (SIZE <? len b + step)%nat then (SIZE - step)%nat else len b).
  assert (Hcnt : (cnt + step <= SIZE)%nat) by (unfold cnt; destruct (Nat.ltb_spec SIZE (len b + step)); slia).
  set (F := firstn cnt (dat b)). set (M := firstn step (skipn cnt (dat b))). set (D := skipn step (skipn cnt (dat b))).
  assert (ED : dat b = F ++ M ++ D).
  { unfold F, M, D. rewrite firstn_skipn. symmetry. apply firstn_skipn. }
  pose proof (wf_size _ Hb) as Sb. pose proof (wf_limbs _ Hb) as LLb.
  assert (SF : length F = cnt) by (apply firstn_length_le; slia).
  assert (SMm : length M = step) by (apply firstn_length_le; rewrite skipn_length; slia).
  assert (SDd : length D = (SIZE - cnt - step)%nat) by (unfold D; rewrite !skipn_length; slia).
  assert (HF : val F mod P (SIZE - step) = mag b mod P (SIZE - step) /\ D = zeros (length D) /\ (len b <= cnt \/ cnt + step = SIZE)%nat).
  { unfold cnt in *. destruct (Nat.ltb_spec SIZE (len b + step)) as [L|L].
    - split; [|split; [|right; slia]].
      + unfold mag. rewrite (val_split (SIZE - step) (dat b)) by slia. fold F.
        rewrite (N.mul_comm (P _)), N.mod_add by apply P_nz. reflexivity.
      + assert (D0 : length D = 0%nat) by slia. apply length_zero_iff_nil in D0. rewrite D0. reflexivity.
    - split; [|split; [|left; slia]].
      + unfold F. rewrite <- mag_firstn by auto. reflexivity.
      + unfold D. rewrite skipn_plus, (skipn_high b) by (auto; slia). rewrite zeros_length. reflexivity. }
  destruct HF as (HF & HD & Hcase).
  assert (LF : limbs F) by (apply limbs_firstn; auto).
  assert (LM : limbs M) by (apply limbs_firstn, limbs_skipn; auto).
  assert (LD : limbs D) by (apply limbs_skipn, limbs_skipn; auto).
  clearbody F M D cnt.
  destruct (lshift_loop_ok step off Ho F M D (if (cnt + step <? SIZE)%nat then Some (cnt + step)%nat else None))
    as (M' & D' & E & SM' & LM' & LD' & SD' & V'); auto.
  { intros _. rewrite SF. destruct D as [|x D]; cbn [length] in SDd;
      destruct (Nat.ltb_spec (cnt + step) SIZE); auto; slia. }
  { rewrite HD. destruct (length D); cbn [zeros repeat hd]; rewrite N.mod_0_l by apply pow2_nz; reflexivity. }
  rewrite SF in E. rewrite ED, E. cbn [obind].
  assert (Eov : overlay (zeros step) (M' ++ D') = zeros step ++ D').
  { unfold overlay. rewrite zeros_length, skipn_app_ge by auto. reflexivity. }
  rewrite Eov.
  assert (SDa : length (zeros step ++ D') = SIZE) by (rewrite app_length, zeros_length, SD'; slia).
  assert (Vd : val (zeros step ++ D') = (mag b * 2 ^ n) mod 2 ^ 8224).
  { rewrite val_app, val_zeros, zeros_length, V', HD, val_zeros, N.mul_0_r, !N.add_0_r, N.add_0_l, zeros_length, SF, SDd.
    replace (cnt + (SIZE - cnt - step))%nat with (SIZE - step)%nat by slia.
    rewrite <- N.mul_mod_idemp_r by apply P_nz. rewrite HF. rewrite N.mul_mod_idemp_r by apply P_nz.
    rewrite <- N.mul_mod_distr_l by (try apply P_nz).
    rewrite <- P_add, En. replace (step + (SIZE - step))%nat with SIZE by slia. rewrite P_fits. f_equal. slia. }
  set (cap := if off =? 0 then (cnt + step)%nat else Nat.min (cnt + step + 1) SIZE).
  assert (Hcap : (cap <= SIZE)%nat) by (unfold cap; destruct (off =? 0); slia).
  destruct (top_ok cap (zeros step ++ D')) as (k & Ek & _); [slia|]. rewrite Ek. cbn [obind].
  eexists. split; [reflexivity|]. split; [|split; [reflexivity|exact Vd]].
  assert (LDa : limbs (zeros step ++ D')) by (apply limbs_app; auto using limbs_zeros).
  apply (wfp_top _ cap); auto.
  pose proof (val_bound _ LDa) as Bd. rewrite SDa in Bd.
  destruct (Nat.eq_dec cap SIZE) as [->|Hc]; auto.
  rewrite Vd. eapply N.le_lt_trans; [apply N.mod_le; apply pow2_nz|].
  destruct Hcase as [Hcase|Hcase]; [|unfold cap in Hc; destruct (off =? 0); slia].
  rewrite En. pose proof (mag_lt b Hb) as G. pose proof (P_mono _ _ Hcase) as PM.
  unfold cap. destruct (N.eqb_spec off 0) as [->|O0].
  - change (2 ^ 0) with 1. rewrite N.mul_1_r, P_add. apply N.mul_lt_mono_pos_r; [pose proof (P_pos step)|]; slia.
  - assert (Hc2 : (cnt + step + 1 <= SIZE)%nat) by (unfold cap in Hc; destruct (N.eqb_spec off 0); slia).
    rewrite Nat.min_l by auto. rewrite Nat.add_1_r, P_S, P_add.
    assert (2 ^ off <= BB) by (change BB with (2 ^ 32); apply N.pow_le_mono_r; slia).
    assert (mag b * P step < P cnt * P step) by (apply N.mul_lt_mono_pos_r; [pose proof (P_pos step)|]; slia).
    assert (mag b * P step * 2 ^ off < P cnt * P step * 2 ^ off) by (apply N.mul_lt_mono_pos_r; auto; pose proof (pow2_pos off); slia).
    assert (P cnt * P step * 2 ^ off <= P cnt * P step * BB) by (apply N.mul_le_mono_l; auto). slia.
Qed.

(** ** Right shift *)
Lemma shr_split cur off : off <= 32 -> cur < BB ->
  (cur * 2 ^ (32 - off)) mod BB = (cur mod 2 ^ off) * 2 ^ (32 - off).
Proof.
  intros H Hc. rewrite (pow_split off H). apply N.mul_mod_distr_r; apply pow2_nz.
Qed.

Lemma rshift_loop_ok step off T : off < 32 -> forall F A M, limbs A -> limbs M -> limbs F -> length M = step ->
  (off <> 0 -> A <> [] -> last A 0 < 2 ^ (32 - off)) ->
  exists A' M', rshift_loop (length F) (length A) step off (A ++ M ++ F ++ T) = Some (A' ++ M' ++ T) /\
    length A' = (length A + length F)%nat /\ length M' = step /\ limbs A' /\ limbs M' /\
    val A' = val A + P (length A) * val F / 2 ^ off.
Proof.
  intros Ho. induction F as [|cur F IH]; intros A M LA LM LF HM Hlast.
  - exists A, M. cbn [length rshift_loop app]. rewrite Nat.add_0_r. split; auto. split; auto. split; auto. split; auto. split; auto.
    rewrite val_nil, N.mul_0_r, N.div_0_l by apply pow2_nz. slia.
  - inversion LF as [|? ? Hcur LF']; subst. unfold limb in Hcur. cbn [length rshift_loop].
    rewrite nth_error_app2 by slia. replace (length A + length M - length A)%nat with (length M) by slia.
    rewrite nth_error_app2 by slia. rewrite Nat.sub_diag. cbn [app nth_error obind].
    set (lo := cur / 2 ^ off). set (h := (cur mod 2 ^ off) * 2 ^ (32 - off)).
    assert (Hlo : lo < 2 ^ (32 - off)).
    { unfold lo. apply N.div_lt_upper_bound; [apply pow2_nz|]. rewrite <- pow_split by slia. exact Hcur. }
    assert (Hp32 : 2 ^ (32 - off) <= BB) by (change BB with (2 ^ 32); apply N.pow_le_mono_r; slia).
    assert (Hlo' : lo < BB) by slia.
    pose proof (N.div_mod cur (2 ^ off) (pow2_nz off)) as DM. fold lo in DM.
    (* the previous limb receives the low bits *)
    assert (HA : exists A1, limbs A1 /\ length A1 = length A /\
      val A1 + P (length A) * lo = val A + P (length A) * cur / 2 ^ off /\
      (off <> 0 -> or_at (A ++ M ++ cur :: F ++ T) (match length A with O => None | S p => Some p end) h = Some (A1 ++ M ++ cur :: F ++ T)) /\
      (off = 0 -> A1 = A)).
    { destruct (N.eq_dec off 0) as [O0|O0].
      { exists A. split; auto. split; auto. split; [|split; auto; congruence].
        unfold lo. rewrite O0. change (2 ^ 0) with 1. rewrite !N.div_1_r. reflexivity. }
      destruct A as [|a A _] using rev_ind.
      { exists []. split; [constructor|]. split; auto. split; [|split; auto]. cbn [length]. rewrite P_0, val_nil, !N.mul_1_l. reflexivity. }
      rewrite app_length in *. cbn [length] in *. rewrite Nat.add_1_r in *.
      apply limbs_app in LA. destruct LA as [LA La]. inversion La as [|? ? Ha _]; subst. unfold limb in Ha.
      assert (Hl : a < 2 ^ (32 - off)).
      { specialize (Hlast O0). rewrite last_last in Hlast. apply Hlast. intros X. destruct A; discriminate. }
      assert (Hh : h mod 2 ^ (32 - off) = 0) by (unfold h; apply N.mod_mul, pow2_nz).
      assert (Hh2 : a + h < BB).
      { assert (R : cur mod 2 ^ off < 2 ^ off) by (apply N.mod_lt, pow2_nz).
        revert R Hl Hh. unfold h. generalize (cur mod 2 ^ off). intros z R Hl _.
        assert (R2 : (z + 1) * 2 ^ (32 - off) <= 2 ^ off * 2 ^ (32 - off)) by (apply N.mul_le_mono_r; slia).
        rewrite <- pow_split in R2 by slia. slia. }
      exists (A ++ [a + h]). split; [apply limbs_app; split; auto; constructor; auto; constructor|].
      split; [rewrite app_length; cbn; slia|]. split; [|split; [|congruence]].
      - rewrite !val_app, !val_cons, val_nil, P_S.
        assert (EQ : BB * P (length A) * cur / 2 ^ off = P (length A) * (2 ^ (32 - off) * cur)).
        { rewrite (pow_split off) by slia. replace (2 ^ off * 2 ^ (32 - off) * P (length A) * cur) with (P (length A) * (2 ^ (32 - off) * cur) * 2 ^ off) by slia.
          apply N.div_mul, pow2_nz. }
        rewrite EQ. rewrite DM at 1. unfold h. rewrite (pow_split off) by slia. slia.
      - intros _. unfold or_at. rewrite <- !app_assoc. rewrite nth_error_app2 by slia. rewrite Nat.sub_diag. cbn [app nth_error obind].
        rewrite store_app2 by (cbn [length]; slia). rewrite Nat.sub_diag. cbn [upd].
        rewrite N.lor_comm, (lor_add h a (32 - off)) by auto. rewrite N.add_comm. reflexivity. }
    destruct HA as (A1 & LA1 & SA1 & VA1 & EO & EO0).
    (* the store *)
    assert (HM2 : exists M2, upd (M ++ cur :: F ++ T) 0 lo = lo :: M2 ++ F ++ T /\ length M2 = length M /\ limbs M2).
    { destruct M as [|m M]; [exists []; auto|]. exists (M ++ [cur]). inversion LM; subst. split; [cbn; rewrite <- app_assoc; reflexivity|].
      split; [rewrite app_length; cbn; slia|]. apply limbs_app. split; auto. constructor; auto. }
    destruct HM2 as (M2 & EM2 & SM2 & LM2).
    assert (Est : store (A1 ++ M ++ cur :: F ++ T) (length A) lo = Some ((A1 ++ [lo]) ++ M2 ++ F ++ T)).
    { rewrite store_app2; try slia; [|rewrite app_length; cbn [length]; slia]. rewrite SA1, Nat.sub_diag, EM2, <- app_assoc. reflexivity. }
    assert (SA2 : length (A1 ++ [lo]) = S (length A)) by (rewrite app_length; cbn; slia).
    destruct (IH (A1 ++ [lo]) M2) as (A' & M' & E' & S' & SM' & LA' & LM' & V'); auto.
    { apply limbs_app. split; auto. constructor; auto. }
    { intros _ _. rewrite last_last. exact Hlo. }
    rewrite SA2 in E', S', V'.
    exists A', M'. split; [|].
    + destruct (N.eqb_spec off 0) as [O0|O0].
      * rewrite <- (EO0 O0) at 1. assert (El : lo = cur) by (unfold lo; rewrite O0; apply N.div_1_r).
        rewrite El in *. rewrite Est. cbn [obind]. exact E'.
      * rewrite mask32_mod, N.shiftl_mul_pow2.
        assert (Hw : cur * 2 ^ (32 - off) < W) by (apply limb_pow; auto; slia).
        rewrite w64_small by auto. rewrite shr_split by (auto; slia). fold h. rewrite (EO O0). cbn [obind].
        rewrite mask32_mod, N.shiftr_div_pow2. fold lo. rewrite N.mod_small by auto. rewrite Est. cbn [obind]. exact E'.
    + split; [rewrite S'; slia|]. split; [exact SM'|]. split; auto. split; auto.
      rewrite V', val_app, SA1, (val_cons lo), val_nil, N.mul_0_r, N.add_0_r, val_cons, VA1, P_S.
      replace (P (length A) * (cur + BB * val F)) with (P (length A) * cur + P (length A) * val F * 2 ^ (32 - off) * 2 ^ off).
      2:{ rewrite (pow_split off) by slia. slia. }
      rewrite N.div_add by apply pow2_nz.
      replace (BB * P (length A) * val F) with (P (length A) * val F * 2 ^ (32 - off) * 2 ^ off) by (rewrite (pow_split off) by slia; slia).
      rewrite N.div_mul by apply pow2_nz. slia.
Qed.

Lemma right_shift_ok b n : wfp b -> n < 8224 -> (len b < SIZE)%nat \/ 32 <= n \/ n = 0 ->
  exists r, bn_right_shift b n = Some r /\ wfp r /\ (neg r = neg b \/ mag r = 0) /\ mag r = mag b / 2 ^ n.
Proof.
  intros Hb Hn Hcase. pose proof (wf_len _ Hb) as Lb. unfold bn_right_shift.
  destruct (N.eqb_spec n 0) as [->|N0].
  { exists b. split; auto. split; auto. split; auto. change (2 ^ 0) with 1. rewrite N.div_1_r. reflexivity. }
  set (step := N.to_nat (n / 32)). set (off := n mod 32).
  assert (Ho : off < 32) by (apply N.mod_lt; slia).
  assert (Hst : (step < SIZE)%nat).
  { unfold step, SIZE. assert (n / 32 < 257) by (apply N.div_lt_upper_bound; slia). lia. }
  assert (Hst2 : (len b < SIZE)%nat \/ (1 <= step)%nat).
  { destruct Hcase as [?|[?|?]]; [left; auto|right|slia]. unfold step. assert (1 <= n / 32) by (apply N.div_le_lower_bound; slia). lia. }
  assert (En : 2 ^ n = P step * 2 ^ off).
  { unfold P, step, off. rewrite N2Nat.id. change BB with (2 ^ 32). rewrite <- N.pow_mul_r, <- N.pow_add_r.
    f_equal. apply N.div_mod. slia. }
  clearbody step off. rewrite (proj2 (Nat.leb_gt _ _) Hst).
  destruct (Nat.leb_spec (len b) step) as [L|L].
  { exists bn_zero. split; auto. split; [apply wfp_zero|]. rewrite mag_zero. split; auto.
    symmetry. apply N.div_small. rewrite En. pose proof (mag_lt b Hb). pose proof (P_mono _ _ L). pose proof (pow2_pos off). nia. }
  set (m := (len b - step)%nat).
  set (M := firstn step (dat b)). set (F := firstn m (skipn step (dat b))). set (T := skipn (len b) (dat b)).
  pose proof (wf_size _ Hb) as Sb. pose proof (wf_limbs _ Hb) as LLb.
  assert (ED : dat b = [] ++ M ++ F ++ T).
  { cbn [app]. unfold M, F, T. rewrite <- (firstn_skipn step (dat b)) at 1. f_equal.
    rewrite <- (firstn_skipn m (skipn step (dat b))) at 1. f_equal. rewrite skipn_plus. f_equal. unfold m. slia. }
  assert (SMm : length M = step) by (apply firstn_length_le; slia).
  assert (SF : length F = m) by (apply firstn_length_le; rewrite skipn_length; unfold m; slia).
  assert (HT : T = zeros (SIZE - len b)) by (apply (wf_high _ Hb)).
  destruct (rshift_loop_ok step off T Ho F [] M) as (A' & M' & E & SA' & SM' & LA' & LM' & V'); auto.
  { constructor. } { apply limbs_firstn; auto. } { apply limbs_firstn, limbs_skipn; auto. } { congruence. }
  rewrite SF in E. cbn [length] in E. rewrite ED, E. cbn [obind]. cbn [length Nat.add] in SA'. rewrite SF in SA'.
  rewrite firstn_app_eq by auto.
  assert (ET : skipn (len b) (A' ++ M' ++ T) = T).
  { rewrite app_assoc. apply skipn_app_ge. rewrite app_length. unfold m in *. slia. }
  rewrite ET.
  assert (VF : val F = mag b / P step).
  { assert (G : mag b = val M + P step * val F).
    { unfold mag. rewrite ED. cbn [app]. rewrite !val_app, HT, val_zeros, SMm. slia. }
    rewrite G, (N.mul_comm (P step)), N.div_add by apply P_nz.
    pose proof (val_bound M) as B0. rewrite SMm in B0. rewrite N.div_small; [slia|]. apply B0. apply limbs_firstn; auto. }
  cbn [length] in V'. rewrite val_nil, P_0, N.mul_1_l, N.add_0_l, VF in V'. rewrite N.div_div in V' by (apply P_nz || apply pow2_nz).
  rewrite <- En in V'.
  assert (Vd : val (A' ++ zeros step ++ T) = mag b / 2 ^ n) by (rewrite !val_app, HT, !val_zeros, V'; rewrite !N.add_0_l, !N.mul_0_r, N.add_0_r; reflexivity).
  assert (Sd : length (A' ++ zeros step ++ T) = SIZE).
  { rewrite !app_length, zeros_length, HT, zeros_length. unfold m in *. slia. }
  assert (Ld : limbs (A' ++ zeros step ++ T)) by (rewrite HT, !limbs_app; auto using limbs_zeros).
  assert (Hm : (S m <= SIZE)%nat) by (unfold m in *; slia).
  destruct (top_ok (S m) (A' ++ zeros step ++ T)) as (k & Ek & _); [slia|]. rewrite Ek. cbn [obind].
  eexists. split; [reflexivity|]. split; [|split; [left; reflexivity|exact Vd]].
  apply (wfp_top _ (S m)); auto. rewrite Vd, <- V'. pose proof (val_bound _ LA') as BA. rewrite SA' in BA.
  pose proof (P_mono m (S m)). slia.
Qed.

(** ** Bit test *)
Lemma testbit_val l : limbs l -> forall i, N.testbit (val l) i = N.testbit (nth (N.to_nat (i / 32)) l 0) (i mod 32).
Proof.
  induction 1 as [|x t Hx Ht IH]; intros i.
  - rewrite val_nil. destruct (N.to_nat (i / 32)); cbn [nth]; rewrite !N.bits_0; reflexivity.
  - rewrite val_cons. unfold limb in Hx. destruct (N.lt_ge_cases i 32) as [L|L].
    + rewrite N.div_small, N.mod_small by auto. cbn [N.to_nat nth].
      rewrite <- (N.mod_pow2_bits_low (x + BB * val t) 32 i) by auto. change (2 ^ 32) with BB.
      rewrite (N.mul_comm BB), N.mod_add by slia. rewrite N.mod_small by auto. reflexivity.
    + replace i with ((i - 32) + 32) at 1 by slia. rewrite <- N.div_pow2_bits. change (2 ^ 32) with BB.
      rewrite (N.mul_comm BB), N.div_add by slia. rewrite N.div_small by auto. rewrite N.add_0_l, IH.
      assert (E : i / 32 = (i - 32) / 32 + 1) by lia. assert (E2 : i mod 32 = (i - 32) mod 32) by lia.
      rewrite E, E2. rewrite N2Nat.inj_add. change (N.to_nat 1) with 1%nat. rewrite Nat.add_1_r. reflexivity.
Qed.

Lemma bit_test_core_ok b i : wfp b -> i < 8224 -> bit_test_core b i = Some (N.testbit (mag b) i).
Proof.
  intros Hb Hi. unfold bit_test_core, mag. rewrite testbit_val by (apply wf_limbs; auto).
  destruct (nth_error_lt (dat b) (N.to_nat (i / 32))) as [x E].
  { rewrite (wf_size _ Hb). unfold SIZE. lia. }
  rewrite E. cbn [obind]. rewrite (nth_error_nth _ _ _ E). reflexivity.
Qed.
Lemma bit_test_ok b i : wfp b -> bn_bit_test b i = Some (N.testbit (mag b) i).
Proof.
  intros Hb. unfold bn_bit_test, BITS. destruct (N.leb_spec 8224 i) as [L|L]; [|apply bit_test_core_ok; auto].
  f_equal. symmetry. pose proof (mag_fits b Hb) as F. unfold fits in F.
  rewrite <- (N.mod_small _ _ F). apply N.mod_pow2_bits_high. auto.
Qed.

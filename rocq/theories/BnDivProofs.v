Require Import List Arith NArith ZArith Lia Bool.
Require Import ZifyBool ZifyNat ZifyN.
Require Import Verif.Base Verif.BnModel Verif.BnSpec Verif.BnLimbProofs Verif.BnAddProofs Verif.BnMulProofs.
Import ListNotations.
Open Scope N_scope.

Lemma divw_limbs_ok n : forall a w t, (n <= length a)%nat -> limbs a -> 1 <= w < BB -> t < w ->
  exists q r, divw_limbs n a w t = Some (q, r) /\ length q = n /\ limbs q /\ r < w /\
    t * P n + val (firstn n a) = val q * w + r.
Proof.
  induction n as [|n IH]; intros a w t Ha La Hw Ht.
  - exists [], t. cbn [divw_limbs firstn length]. rewrite P_0, val_nil. repeat split; auto; [constructor|lia].
  - destruct (nth_error_lt a n) as [x E]; [lia|]. pose proof (limbs_nth _ _ _ La E) as Hx.
    cbn [divw_limbs]. rewrite E. cbn [obind]. change B32 with BB.
    rewrite (w64_small (t * BB)) by lia. rewrite w64_small by lia.
    set (tmp := t * BB + x). pose proof (N.div_mod tmp w ltac:(lia)) as DM.
    destruct (IH a w (tmp mod w)) as (q & r & E2 & Hq & Lq & Hr & V); auto; [lia|apply N.mod_lt; lia|].
    rewrite E2. cbn [obind fst snd]. exists (q ++ [tmp / w]), r.
    assert (Hd : tmp / w < BB) by (apply N.div_lt_upper_bound; [lia|]; unfold tmp; nia).
    repeat split; auto.
    + rewrite app_length. cbn. lia.
    + apply limbs_app. split; auto. constructor; auto; constructor.
    + rewrite val_app, val_cons, val_nil, Hq, P_S.
      assert (Hn1 : (n <= length a)%nat) by lia. rewrite (val_firstn_S _ _ _ Hn1 E).
      replace (t * (BB * P n) + (val (firstn n a) + P n * x)) with (P n * tmp + val (firstn n a)) by (unfold tmp; lia).
      rewrite DM at 1. replace (P n * (w * (tmp / w) + tmp mod w) + val (firstn n a))
        with (P n * w * (tmp / w) + (tmp mod w * P n + val (firstn n a))) by lia. rewrite V. lia.
Qed.

Lemma wfp_small t x : x < BB -> wfp (mkBn t (if x =? 0 then 0%nat else 1%nat) (x :: zeros (SIZE - 1))).
Proof.
  intros H. assert (V : val (x :: zeros (SIZE - 1)) = x) by (rewrite val_cons, val_zeros; lia).
  apply wfp_mk; auto.
  - constructor; [exact H|apply limbs_zeros].
  - destruct (x =? 0); unfold SIZE; lia.
  - rewrite V. destruct (N.eqb_spec x 0) as [->|]; [rewrite P_0; lia|]. rewrite P_S, P_0. lia.
  - rewrite V. destruct (N.eqb_spec x 0) as [->|]; [auto|right]. change (P (1 - 1)) with 1. lia.
Qed.
Lemma mag_small t n x : mag (mkBn t n (x :: zeros (SIZE - 1))) = x.
Proof. unfold mag. cbn [dat]. rewrite val_cons, val_zeros. lia. Qed.

(** Structures filled from a list of limbs. *)
Lemma overlay_zeros_length l : (length l <= SIZE)%nat -> length (overlay l (zeros SIZE)) = SIZE.
Proof. intros. rewrite overlay_length; rewrite zeros_length; auto. Qed.
Lemma overlay_zeros_val l : val (overlay l (zeros SIZE)) = val l.
Proof. rewrite val_overlay, skipn_zeros, val_zeros. lia. Qed.

Lemma div_word_ok d w : wfp d -> 1 <= w < BB ->
  exists r q, bn_div_word d w = Some (Some (r, q)) /\ wfp r /\ wfp q /\ mag d = mag q * w + mag r /\ mag r < w /\
    (neg q = neg d \/ mag q = 0) /\ dat r = mag r :: zeros (SIZE - 1).
Proof.
  intros Hd Hw. pose proof (wf_len _ Hd) as Ld. unfold bn_div_word.
  destruct (N.eqb_spec w 0) as [|_]; [lia|]. change B32 with BB. rewrite N.mod_small by lia.
  destruct (N.eqb_spec w 1) as [->|W1].
  { exists bn_zero, d. rewrite mag_zero. split; auto. split; [apply wfp_zero|]. split; auto. repeat split; auto; lia. }
  destruct (Nat.eqb_spec (len d) 0) as [Z|Z].
  { exists d, bn_zero. rewrite mag_zero. pose proof (proj2 (mag_0 d Hd) Z) as Md. rewrite Md.
    split; auto. split; auto. split; [apply wfp_zero|]. repeat split; auto; try lia.
    pose proof (wf_high _ Hd) as H. rewrite Z, Nat.sub_0_r in H. cbn [skipn] in H. exact H. }
  destruct (nth_error_lt (dat d) (len d - 1)) as [x E]; [rewrite (wf_size _ Hd); lia|].
  pose proof (limbs_nth _ _ _ (wf_limbs _ Hd) E) as Hx.
  rewrite E. cbn [obind].
  assert (Hrem : forall t, store (overlay (zeros (len d)) (dat d)) 0 t = Some (t :: zeros (SIZE - 1))).
  { intros t. unfold overlay. rewrite zeros_length, (wf_high _ Hd). unfold zeros. rewrite <- repeat_app.
    replace (len d + (SIZE - len d))%nat with SIZE by lia. reflexivity. }
  assert (Hn1 : (len d - 1 <= length (dat d))%nat) by (rewrite (wf_size _ Hd); lia).
  assert (Mx : mag d = val (firstn (len d - 1) (dat d)) + P (len d - 1) * x).
  { rewrite mag_firstn by auto. replace (len d) with (S (len d - 1)) at 1 by lia. apply val_firstn_S; auto. }
  assert (X0 : x <> 0).
  { destruct (wf_top _ Hd) as [|T]; [lia|]. rewrite (nth_error_nth _ _ _ E) in T. exact T. }
  assert (PP : P (len d) = BB * P (len d - 1)) by (rewrite <- P_S; f_equal; lia).
  pose proof (P_pos (len d - 1)) as Pp.
  destruct (N.ltb_spec x w) as [L|L].
  - destruct (divw_limbs_ok (len d - 1) (dat d) w x) as (q & r & E2 & Hq & Lq & Hr & V); side.
    rewrite E2. cbn [obind]. rewrite Hrem. cbn [obind]. eexists _, _. split; [reflexivity|].
    rewrite mag_small. split; [apply wfp_small; lia|].
    assert (Mq : mag (mkBn (neg d) (len d - 1) (overlay q (zeros SIZE))) = val q) by apply overlay_zeros_val.
    rewrite Mq. split; [|repeat split; auto; lia].
    pose proof (val_bound _ Lq) as Bq. rewrite Hq in Bq.
    apply wfp_mk; [apply overlay_zeros_length; lia| |lia| |].
    + apply limbs_overlay; auto using limbs_zeros.
    + rewrite overlay_zeros_val. auto.
    + rewrite overlay_zeros_val. destruct (Nat.eq_dec (len d) 1) as [->|]; [left; auto|right].
      replace (len d - 1)%nat with (S (len d - 2)) in V by lia. rewrite P_S in V.
      replace (len d - 1 - 1)%nat with (len d - 2)%nat by lia.
      assert (Hlow : val q * w + r >= P (len d - 2) * BB) by nia.
      assert (val q * w + r < (val q + 1) * w) by lia.
      assert ((val q + 1) * w <= (val q + 1) * BB) by (apply N.mul_le_mono_l; lia). nia.
  - destruct (divw_limbs_ok (len d) (dat d) w 0) as (q & r & E2 & Hq & Lq & Hr & V); side.
    rewrite E2. cbn [obind]. rewrite Hrem. cbn [obind]. eexists _, _. split; [reflexivity|].
    rewrite mag_small. split; [apply wfp_small; lia|].
    assert (Mq : mag (mkBn (neg d) (len d) (overlay q (zeros SIZE))) = val q) by apply overlay_zeros_val.
    rewrite Mq. rewrite <- mag_firstn in V by auto. split; [|repeat split; auto; lia].
    pose proof (val_bound _ Lq) as Bq. rewrite Hq in Bq.
    apply wfp_mk; [apply overlay_zeros_length; lia| |lia| |].
    + apply limbs_overlay; auto using limbs_zeros.
    + rewrite overlay_zeros_val. auto.
    + rewrite overlay_zeros_val. right.
      assert (P (len d - 1) * w <= mag d) by (rewrite Mx; nia).
      assert (val q * w + r < (val q + 1) * w) by lia.
      assert (P (len d - 1) * w < (val q + 1) * w) by lia.
      apply N.mul_lt_mono_pos_r in H1; lia.
Qed.

(** ** Multiplication into a scratch array *)
Lemma nmul_ok a b n m : b < BB -> limbs a -> (m <= length a)%nat -> (n = m \/ n = S m) ->
  (b = 1 -> (n <= length a)%nat /\ val (firstn n a) = val (firstn m a)) ->
  val (firstn m a) * b < P n ->
  exists r, nmul a b n m = Some r /\ length r = n /\ limbs r /\ val r = val (firstn m a) * b.
Proof.
  intros Hb La Hm Hn H1 Hf. unfold nmul. change B32 with BB. rewrite (N.mod_small b) by auto.
  destruct (N.eqb_spec b 0) as [->|B0].
  { exists (zeros n). rewrite zeros_length, val_zeros. split; auto. split; auto. split; [apply limbs_zeros|lia]. }
  destruct (N.eqb_spec b 1) as [->|B1].
  { destruct (H1 eq_refl) as [Hl Hv]. rewrite (proj2 (Nat.leb_le _ _) Hl). exists (firstn n a). split; auto.
    split; [apply firstn_length_le; auto|]. split; [apply limbs_firstn; auto|]. lia. }
  destruct (mulw_limbs_ok m a b 0) as (r & c & E & Hr & Lr & Hc & V); auto; [lia|].
  rewrite E. cbn [obind]. rewrite (N.mod_small c) by auto. rewrite N.add_0_r in V.
  destruct Hn as [->| ->].
  - exists r. rewrite firstn_app, Hr, Nat.sub_diag. cbn [firstn]. rewrite app_nil_r.
    rewrite firstn_all2 by lia. repeat split; auto.
    assert (c = 0) by (destruct (N.eq_dec c 0); auto; nia). subst c. lia.
  - exists (r ++ [c]). rewrite firstn_app, Hr. rewrite firstn_all2 by lia.
    replace (S m - m)%nat with 1%nat by lia. cbn [firstn]. split; auto. rewrite app_length. cbn [length]. split; [lia|].
    split; [apply limbs_app; split; auto; constructor; auto; constructor|].
    rewrite val_app, val_cons, val_nil, Hr. lia.
Qed.

(** ** Step D3: the estimated digit *)
Section D3.
Variables v1 v2 u1 u2 u3 : N.
Hypothesis Hv1 : 2147483648 <= v1 < BB.
Hypothesis Hv2 : v2 < BB.
Hypothesis Hu1 : u1 < BB.
Hypothesis Hu2 : u2 < BB.
Hypothesis Hu3 : u3 < BB.
Let V2 := v1 * BB + v2.
Let T := u1 * BB + u2.
Let U3 := T * BB + u3.
Hypothesis HU : U3 < BB * (V2 + 1).

Definition d3_inv (q r : N) : Prop :=
  q * v1 + r = T /\ r < BB /\ q <= BB + 1 /\ (BB <= q + 1 \/ U3 < (q + 1) * V2).

Lemma u1_le : u1 <= v1.
Proof. unfold V2, U3, T in *. lia. Qed.

Lemma d3_init : d3_inv (T / v1) (T mod v1).
Proof.
  pose proof u1_le. pose proof (N.div_mod T v1 ltac:(lia)) as DM. pose proof (N.mod_lt T v1 ltac:(lia)).
  unfold d3_inv. repeat split; try lia.
  - assert (T / v1 < BB + 2); [|lia]. apply N.div_lt_upper_bound; [lia|]. unfold T. nia.
  - right. unfold V2, U3. 
    assert (G : (T / v1 + 1) * v1 >= T + 1) by lia.
    assert ((T / v1 + 1) * (v1 * BB + v2) >= (T + 1) * BB) by nia. lia.
Qed.

Lemma d3_loop_ok fuel : forall q r, d3_inv q r -> BB <= r + N.of_nat fuel * v1 ->
  exists q', d3_loop (S fuel) v1 v2 q r u3 = Some q' /\ q' < BB /\ q' * V2 <= U3 /\ (q' = BB - 1 \/ U3 < (q' + 1) * V2).
Proof.
  induction fuel as [|fuel IH]; intros q r (I1 & I2 & I3 & I4) Hf; [lia|].
  pose proof u1_le as Hle. cbn [d3_loop]. change B32 with BB.
  assert (Hqv : q * v2 <= 18446744073709551615).
  { change 18446744073709551615 with ((BB + 1) * 4294967295). apply N.mul_le_mono; lia. }
  rewrite (w64_small (r * BB)), (w64_small (r * BB + u3)), (w64_small (q * v2)), (w64_small (r + v1)) by lia.
  assert (EQ : q * V2 + r * BB + u3 = U3 + q * v2) by (unfold V2, U3; rewrite <- I1; lia).
  destruct ((q =? BB) || (r * BB + u3 <? q * v2)) eqn:C.
  - assert (Hq1 : 1 <= q).
    { destruct (N.eq_dec q 0); [|lia]. subst q. apply orb_true_iff in C. destruct C as [C|C]; [apply N.eqb_eq in C; lia|].
      apply N.ltb_lt in C. lia. }
    assert (Hbad : BB <= q \/ U3 < q * V2).
    { apply orb_true_iff in C. destruct C as [C|C]; [apply N.eqb_eq in C; lia|]. apply N.ltb_lt in C. lia. }
    assert (I1' : (q - 1) * v1 + (r + v1) = T) by nia.
    assert (Hbad' : BB <= q - 1 + 1 \/ U3 < (q - 1 + 1) * V2) by (replace (q - 1 + 1) with q by lia; exact Hbad).
    destruct (N.leb_spec BB (r + v1)) as [L|L].
    + assert (Hq : q <= BB).
      { destruct (N.eq_dec q (BB + 1)) as [->|]; [exfalso|lia]. unfold T in I1'.
        assert (BB * v1 + (r + v1) = u1 * BB + u2) by lia. nia. }
      exists (q - 1). split; auto. split; [lia|]. split.
      * assert (EQ' : (q - 1) * V2 + (r + v1) * BB + u3 = U3 + (q - 1) * v2) by (unfold V2, U3; rewrite <- I1'; lia).
        assert ((q - 1) * v2 <= 4294967295 * 4294967295) by (apply N.mul_le_mono; lia). lia.
      * destruct Hbad' as [?|?]; [left|right]; lia.
    + apply IH.
      * unfold d3_inv. repeat split; auto. lia.
      * lia.
  - apply orb_false_iff in C. destruct C as [C1 C2]. apply N.eqb_neq in C1. apply N.ltb_ge in C2.
    assert (HqV : q * V2 <= U3) by lia.
    assert (Hq : q < BB).
    { destruct (N.eq_dec q (BB + 1)) as [->|]; [exfalso|lia]. unfold V2 in *. lia. }
    exists q. split; auto. split; auto. split; auto. destruct I4 as [?|?]; [left; lia|right; auto].
Qed.
End D3.

(** ** One step of the long division *)
Lemma skipn_all_eq (l : list N) n : length l = n -> skipn n l = [].
Proof. intros <-. apply skipn_all. Qed.

Lemma d2_step_ok slen vs win v1 : (2 <= slen)%nat -> length vs = slen -> limbs vs ->
  nth_error vs (slen - 1) = Some v1 -> 2147483648 <= v1 ->
  length win = S slen -> limbs win -> val win < BB * val vs ->
  exists win' q, d2_step slen (vs ++ [0]) win = Some (win', q) /\ length win' = S slen /\ limbs win' /\ q < BB /\
    val win = q * val vs + val win' /\ val win' < val vs.
Proof.
  intros Hs Hv Lv E1 Hv1 Hw Lw Hlt. unfold d2_step.
  destruct (nth_error_lt vs (slen - 2)) as [v2 E2]; [lia|].
  destruct (nth_error_lt win slen) as [u1 F1]; [lia|].
  destruct (nth_error_lt win (slen - 1)) as [u2 F2]; [lia|].
  destruct (nth_error_lt win (slen - 2)) as [u3 F3]; [lia|].
  pose proof (limbs_nth _ _ _ Lv E1) as Bv1. pose proof (limbs_nth _ _ _ Lv E2) as Bv2.
  pose proof (limbs_nth _ _ _ Lw F1) as Bu1. pose proof (limbs_nth _ _ _ Lw F2) as Bu2. pose proof (limbs_nth _ _ _ Lw F3) as Bu3.
  rewrite F1, F2, F3. cbn [obind]. rewrite !nth_error_app1 by lia. rewrite E1, E2. cbn [obind].
  destruct (N.eqb_spec v1 0) as [|_]; [lia|]. change B32 with BB.
  rewrite (w64_small (u1 * BB)) by lia. rewrite (w64_small (u1 * BB + u2)) by lia.
  set (p := P (slen - 2)).
  assert (Dv : exists lv, lv < p /\ val vs = (v1 * BB + v2) * p + lv).
  { exists (val (firstn (slen - 2) vs)). pose proof (val_bound _ (limbs_firstn (slen - 2) vs Lv)) as B0.
    rewrite firstn_length_le in B0 by lia. split; auto. rewrite (val_split (slen - 2)) by lia.
    rewrite (skipn_nth _ _ _ E2). replace (S (slen - 2)) with (slen - 1)%nat by lia. rewrite (skipn_nth _ _ _ E1).
    rewrite skipn_all_eq by lia. rewrite !val_cons, val_nil. unfold p. lia. }
  assert (Du : exists lu, lu < p /\ val win = ((u1 * BB + u2) * BB + u3) * p + lu).
  { exists (val (firstn (slen - 2) win)). pose proof (val_bound _ (limbs_firstn (slen - 2) win Lw)) as B0.
    rewrite firstn_length_le in B0 by lia. split; auto. rewrite (val_split (slen - 2)) by lia.
    rewrite (skipn_nth _ _ _ F3). replace (S (slen - 2)) with (slen - 1)%nat by lia. rewrite (skipn_nth _ _ _ F2).
    replace (S (slen - 1)) with slen by lia. rewrite (skipn_nth _ _ _ F1).
    rewrite skipn_all_eq by lia. rewrite !val_cons, val_nil. unfold p. lia. }
  destruct Dv as (lv & Hlv & Ev). destruct Du as (lu & Hlu & Eu).
  assert (Hp : 1 <= p) by apply P_pos.
  assert (HU : (u1 * BB + u2) * BB + u3 < BB * (v1 * BB + v2 + 1)).
  { apply (N.mul_lt_mono_pos_r p); [lia|]. rewrite Eu, Ev in Hlt. 
    assert (BB * lv < BB * p) by lia. lia. }
  destruct (d3_loop_ok v1 v2 u1 u2 u3 (conj Hv1 Bv1) Bv2 Bu1 Bu2 Bu3 HU 3 _ _ (d3_init v1 v2 u1 u2 u3 (conj Hv1 Bv1) Bv2 Bu1 Bu2 Bu3 HU))
    as (q & Eq & Hq & Q1 & Q2).
  { pose proof (N.mod_lt (u1 * BB + u2) v1). lia. }
  rewrite Eq. cbn [obind].
  set (V2 := v1 * BB + v2) in *. set (U3 := (u1 * BB + u2) * BB + u3) in *.
  set (v := val vs) in *. set (u := val win) in *.
  assert (CA : u < (q + 1) * v).
  { destruct Q2 as [->|Q2]; [change (BB - 1 + 1) with BB; exact Hlt|].
    rewrite Eu. assert ((U3 + 1) * p <= (q + 1) * V2 * p) by (apply N.mul_le_mono_r; lia).
    assert ((q + 1) * (V2 * p) <= (q + 1) * v) by (apply N.mul_le_mono_l; lia). lia. }
  assert (CB : q * v < u + v).
  { rewrite Eu. rewrite Ev at 1.
    assert (q * V2 * p <= U3 * p) by (apply N.mul_le_mono_r; auto).
    assert (q * lv <= BB * lv) by (apply N.mul_le_mono_r; lia).
    assert (BB * p <= V2 * p) by (apply N.mul_le_mono_r; unfold V2; lia). lia. }
  pose proof (val_bound _ Lv) as Bv. rewrite Hv in Bv. fold v in Bv.
  pose proof (val_bound _ Lw) as Bw. rewrite Hw in Bw. fold u in Bw.
  assert (Lv0 : limbs (vs ++ [0])) by (apply limbs_app; split; auto; constructor; [reflexivity|constructor]).
  assert (Sv0 : length (vs ++ [0]) = S slen) by (rewrite app_length; cbn; lia).
  assert (Vv0 : val (firstn (slen + 1) (vs ++ [0])) = v).
  { rewrite firstn_all2 by lia. rewrite val_app, val_cons, val_nil. fold v. lia. }
  destruct (nmul_ok (vs ++ [0]) q (slen + 1) (slen + 1)) as (tmp & Et & St & Lt & Vt); auto; try lia.
  { rewrite Vv0. replace (slen + 1)%nat with (S slen) by lia. rewrite P_S.
    assert (v * q <= P slen * q) by (apply N.mul_le_mono_r; lia). pose proof (P_pos slen). nia. }
  rewrite Et. cbn [obind]. rewrite Vv0 in Vt. unfold nsbb, nadc.
  destruct (sub_limbs_ok (slen + 1) win tmp 0) as (r & c & Er & Sr & Lr & Hc & Vr); auto; try lia.
  rewrite Er. cbn [obind fst snd]. rewrite !firstn_all2 in Vr by lia. fold u in Vr. rewrite Vt in Vr.
  replace (slen + 1)%nat with (S slen) in * by lia.
  assert (Cc : c = 0 \/ c = 1) by lia. destruct Cc as [->| ->].
  - change (0 =? 0) with true. cbn [obind]. exists r, q. repeat split; auto; lia.
  - change (1 =? 0) with false. cbn [obind].
    destruct (add_limbs_ok (S slen) r (vs ++ [0]) 0) as (r2 & c2 & E3 & S3 & L3 & Hc2 & V3); auto; try lia.
    rewrite E3. cbn [obind fst]. rewrite Vv0, firstn_all2 in V3 by lia.
    exists r2, (q - 1). pose proof (val_bound _ L3) as B3. rewrite S3 in B3.
    pose proof (val_bound _ Lr) as Br. rewrite Sr in Br.
    assert (Hq0 : q <> 0) by (intros ->; lia).
    assert (EE : (q - 1) * v + v = q * v) by nia.
    assert (Pv : P slen <= P (S slen)) by (apply P_mono; lia).
    assert (Cc : c2 = 0 \/ c2 = 1) by lia. destruct Cc as [->| ->]; [exfalso; lia|].
    repeat split; auto; lia.
Qed.

Lemma skipn_app_ge (a b : list N) n : length a = n -> skipn n (a ++ b) = b.
Proof. intros <-. induction a; cbn; auto. Qed.
Lemma firstn_app_eq (a b : list N) n : length a = n -> firstn n (a ++ b) = a.
Proof. intros <-. induction a as [|x a IH]; cbn; [destruct b; auto|f_equal; auto]. Qed.
Lemma val_firstn_small l n : limbs l -> (n <= length l)%nat -> val l < P n -> val (firstn n l) = val l.
Proof.
  intros Ll Hn Hv. rewrite (val_split n l) in Hv by auto. apply lead0 in Hv.
  rewrite (val_split n l) by auto. rewrite Hv. lia.
Qed.
Lemma val_skipn_small l n : limbs l -> (n <= length l)%nat -> val l < P n -> val (skipn n l) = 0.
Proof. intros Ll Hn Hv. rewrite (val_split n l) in Hv by auto. apply lead0 in Hv. exact Hv. Qed.

Lemma d2_loop_ok slen vs v1 : (2 <= slen)%nat -> length vs = slen -> limbs vs ->
  nth_error vs (slen - 1) = Some v1 -> 2147483648 <= v1 ->
  forall j pd, (j + slen <= length pd)%nat -> limbs pd -> val (skipn j pd) < val vs ->
  exists pd' q, d2_loop j slen (vs ++ [0]) pd = Some (pd', q) /\ length pd' = length pd /\ limbs pd' /\
    length q = j /\ limbs q /\ val pd = val q * val vs + val pd' /\ val pd' < val vs.
Proof.
  intros Hs Hv Lv E1 Hv1. pose proof (val_bound _ Lv) as Bv. rewrite Hv in Bv.
  induction j as [|k IH]; intros pd Hl Lp Hlt.
  - exists pd, []. cbn [d2_loop]. split; [reflexivity|]. split; [reflexivity|]. split; [exact Lp|]. split; [reflexivity|].
    split; [constructor|]. split; [rewrite val_nil; lia|exact Hlt].
  - cbn [d2_loop]. 
    assert (Sk : length (skipn k pd) = (length pd - k)%nat) by apply skipn_length.
    assert (Lk : limbs (skipn k pd)) by (apply limbs_skipn; auto).
    destruct (nth_error_lt pd k) as [x Ex]; [lia|]. pose proof (limbs_nth _ _ _ Lp Ex) as Hx.
    assert (Vk : val (skipn k pd) < BB * val vs).
    { rewrite (skipn_nth _ _ _ Ex), val_cons. lia. }
    assert (HP : BB * val vs < P (slen + 1)) by (rewrite Nat.add_1_r, P_S; lia).
    assert (Vw : val (firstn (slen + 1) (skipn k pd)) = val (skipn k pd)) by (apply val_firstn_small; auto; lia).
    assert (Vz : val (skipn (slen + 1) (skipn k pd)) = 0) by (apply val_skipn_small; auto; lia).
    destruct (d2_step_ok slen vs (firstn (slen + 1) (skipn k pd)) v1) as (win & q & E & Sw & Lw & Hq & EV & Hr); auto.
    { rewrite firstn_length_le; lia. } { apply limbs_firstn; auto. } { lia. }
    rewrite E. cbn [obind].
    rewrite skipn_plus in Vz. 
    set (rest := skipn (k + (slen + 1)) pd) in *.
    assert (Lrest : limbs rest) by (apply limbs_skipn; auto).
    assert (Srest : length rest = (length pd - (k + (slen + 1)))%nat) by apply skipn_length.
    assert (Lf : limbs (firstn k pd)) by (apply limbs_firstn; auto).
    assert (Sf : length (firstn k pd) = k) by (apply firstn_length_le; lia).
    set (pd1 := firstn k pd ++ win ++ rest).
    assert (S1 : length pd1 = length pd) by (unfold pd1; rewrite !app_length, Sf, Sw, Srest; lia).
    assert (L1 : limbs pd1) by (unfold pd1; rewrite !limbs_app; auto).
    assert (V1 : val (skipn k pd1) = val win).
    { unfold pd1. rewrite skipn_app_ge by auto. rewrite val_app, Vz. lia. }
    destruct (IH pd1) as (pd' & qs & E2 & S2 & L2 & Sq & Lq & EV2 & Hr2); auto; [lia|lia|].
    rewrite E2. cbn [obind fst snd]. exists pd', (qs ++ [q]). split; auto. split; [congruence|]. split; auto.
    split; [rewrite app_length; cbn; lia|]. split; [apply limbs_app; split; auto; constructor; auto; constructor|].
    split; auto. rewrite val_app, val_cons, val_nil, Sq, N.mul_0_r, N.add_0_r.
    rewrite (val_split k pd) by lia. rewrite <- Vw, EV.
    assert (Vp1 : val pd1 = val (firstn k pd) + P k * val win).
    { unfold pd1. rewrite !val_app, Sf, Vz. lia. }
    rewrite Vp1 in EV2. lia.
Qed.

(** ** The whole division *)
Lemma exact_div a b c r : a * b = c * b + r -> r < b -> c = a.
Proof.
  intros E H. destruct (N.lt_total a c) as [L|[L|L]]; auto.
  - assert ((a + 1) * b <= c * b) by (apply N.mul_le_mono_r; lia). lia.
  - assert ((c + 1) * b <= a * b) by (apply N.mul_le_mono_r; lia). lia.
Qed.
Lemma concave c s : 1 <= s <= c -> c <= (c + 1 - s) * s.
Proof.
  intros H. destruct (N.le_exists_sub s c) as (e & -> & _); [lia|]. replace (e + s + 1 - s) with (e + 1) by lia. nia.
Qed.
Lemma norm_factor s : 1 <= s < BB -> 2147483648 <= BB / (s + 1) * s.
Proof.
  intros Hs. set (D := BB / (s + 1)). pose proof (N.div_mod BB (s + 1) ltac:(lia)) as DM. fold D in DM.
  pose proof (N.mod_lt BB (s + 1) ltac:(lia)) as ML.
  destruct (N.le_gt_cases 2147483648 s) as [L|L].
  - assert (1 <= D); [|nia]. unfold D. apply N.div_le_lower_bound; lia.
  - destruct (N.le_gt_cases 2147483648 (D * s)) as [|L2]; auto. exfalso.
    assert (H1 : BB - s <= D * s + D) by lia.
    assert (H2 : 2147483649 - s <= D) by lia.
    assert (H3 : (2147483649 - s) * s <= D * s) by (apply N.mul_le_mono_r; auto).
    assert (H4 : 2147483648 <= (2147483648 + 1 - s) * s) by (apply concave; lia).
    change (2147483648 + 1) with 2147483649 in H4. lia.
Qed.

Lemma one_limb b : wfp b -> len b = 1%nat -> exists w, nth_error (dat b) 0 = Some w /\ 1 <= w < BB /\ mag b = w.
Proof.
  intros Hb L1. destruct (nth_error_lt (dat b) 0) as [w E]; [rewrite (wf_size _ Hb); unfold SIZE; lia|].
  exists w. split; auto. destruct (wf_top _ Hb) as [|T]; [lia|]. rewrite L1 in T. cbn [Nat.sub] in T.
  rewrite (nth_error_nth _ _ _ E) in T. pose proof (limbs_nth _ _ _ (wf_limbs _ Hb) E). split; [lia|].
  rewrite mag_firstn, L1 by auto. destruct (dat b) as [|h t]; [discriminate|]. cbn in E. injection E as ->.
  cbn [firstn]. rewrite val_cons, val_nil. lia.
Qed.

Lemma div_ok d s : wfp d -> wfp s -> mag s <> 0 ->
  (len d < SIZE)%nat \/ nth (len s - 1) (dat s) 0 < 2147483648 \/ (len s < 2)%nat ->
  exists r q, bn_div d s = Some (Some (r, q)) /\ wfp r /\ wfp q /\ mag d = mag q * mag s + mag r /\ mag r < mag s /\
    (neg q = xorb (neg d) (neg s) \/ mag q = 0) /\ (neg r = xorb (neg d) (neg s) \/ mag r = 0).
Proof.
  intros Hd Hs Hs0 Hc. pose proof (wf_len _ Hd) as Ld. pose proof (wf_len _ Hs) as Ls. unfold bn_div.
  destruct (Nat.eqb_spec (len s) 0) as [S0|S0]; [apply (mag_0 s Hs) in S0; lia|].
  destruct (Nat.eqb_spec (len s) 1) as [S1|S1].
  { destruct (one_limb s Hs S1) as (w & E & Hw & Mw). rewrite E. cbn [obind].
    destruct (div_word_ok d w Hd Hw) as (r & q & Er & Wr & Wq & EV & Hr & _). rewrite Er. cbn [obind].
    eexists _, _. split; [reflexivity|]. rewrite !mag_set_neg, Mw. repeat split; auto; apply wfp_set_neg; auto. }
  rewrite abs_compare_ok by auto. cbn [obind]. unfold zcmp.
  destruct (Z.compare_spec (Z.of_N (mag d)) (Z.of_N (mag s))) as [C|C|C]; cbn [Z.eqb Z.ltb Z.compare].
  { eexists _, _. split; [reflexivity|]. split; [apply wfp_zero|]. rewrite mag_zero.
    assert (Hm : mag (mkBn (xorb (neg d) (neg s)) 1 (1 :: zeros (SIZE - 1))) = 1) by apply mag_small.
    rewrite Hm. split; [apply (wfp_small _ 1); lia|]. repeat split; auto; lia. }
  { eexists _, _. split; [reflexivity|]. split; [apply wfp_set_neg; auto|]. split; [apply wfp_zero|].
    rewrite mag_zero, mag_set_neg. repeat split; auto; lia. }
  assert (Hls : (len s <= len d)%nat).
  { destruct (le_lt_dec (len s) (len d)); auto. pose proof (len_lt_mag d s Hd Hs l). lia. }
  set (slen := len s) in *. set (dlen := len d) in *. assert (H2 : (2 <= slen)%nat) by lia.
  destruct (nth_error_lt (dat s) (slen - 1)) as [sv Esv]; [rewrite (wf_size _ Hs); lia|].
  pose proof (limbs_nth _ _ _ (wf_limbs _ Hs) Esv) as Bsv.
  destruct (wf_top _ Hs) as [|T]; [lia|]. fold slen in T. rewrite (nth_error_nth _ _ _ Esv) in T, Hc.
  rewrite Esv. cbn [obind]. change B32 with BB.
  set (dd := BB / (sv + 1)).
  pose proof (norm_factor sv ltac:(lia)) as NF. fold dd in NF.
  pose proof (N.div_mod BB (sv + 1) ltac:(lia)) as DM. fold dd in DM.
  pose proof (N.mod_lt BB (sv + 1) ltac:(lia)) as ML.
  assert (Hdd1 : 1 <= dd) by (destruct (N.eq_dec dd 0) as [Z|]; [rewrite Z in NF|]; lia).
  assert (Hdd2 : dd < BB) by nia.
  assert (Hss : mag s = val (firstn (slen - 1) (dat s)) + P (slen - 1) * sv).
  { rewrite mag_firstn by auto. fold slen. replace slen with (S (slen - 1)) at 1 by lia.
    apply val_firstn_S; auto. rewrite (wf_size _ Hs). lia. }
  pose proof (val_bound _ (limbs_firstn (slen - 1) _ (wf_limbs _ Hs))) as Blow.
  rewrite firstn_length_le in Blow by (rewrite (wf_size _ Hs); lia).
  assert (PP : P slen = BB * P (slen - 1)) by (rewrite <- P_S; f_equal; lia).
  pose proof (P_pos (slen - 1)) as Pp.
  assert (Hsd : mag s * dd < P slen).
  { rewrite PP. assert (mag s < (sv + 1) * P (slen - 1)) by lia.
    assert (mag s * dd < (sv + 1) * P (slen - 1) * dd) by (apply N.mul_lt_mono_pos_r; lia).
    assert ((sv + 1) * dd * P (slen - 1) <= BB * P (slen - 1)) by (apply N.mul_le_mono_r; lia). lia. }
  assert (Hmd : mag d * dd < P (dlen + 1)).
  { rewrite Nat.add_1_r, P_S. pose proof (mag_lt d Hd) as G. fold dlen in G.
    assert (mag d * dd < P dlen * dd) by (apply N.mul_lt_mono_pos_r; lia).
    assert (P dlen * dd <= P dlen * BB) by (apply N.mul_le_mono_l; lia). lia. }
  assert (Hdd3 : sv < 2147483648 -> 2 <= dd) by (intros; unfold dd; apply N.div_le_lower_bound; lia).
  clear DM ML. clearbody dd.
  destruct (nmul_ok (dat d) dd (dlen + 1) dlen) as (pd & Ed & Sd & Lpd & Vd); auto; side.
  { intros E1. assert (L1 : (dlen < SIZE)%nat).
    { destruct Hc as [?|[Hc|?]]; auto; [|lia]. exfalso. apply Hdd3 in Hc. lia. }
    split; [lia|]. rewrite <- (mag_firstn_ge d) by (auto; unfold dlen; lia). apply mag_firstn. auto. }
  { unfold dlen. rewrite <- mag_firstn by auto. exact Hmd. }
  unfold dlen in Vd. rewrite <- mag_firstn in Vd by auto. fold dlen in Vd.
  destruct (nmul_ok (dat s) dd slen slen) as (ps & Es & Ss & Lps & Vs); auto; side.
  { unfold slen. rewrite <- mag_firstn by auto. exact Hsd. }
  unfold slen in Vs. rewrite <- mag_firstn in Vs by auto. fold slen in Vs.
  rewrite Ed, Es. cbn [obind].
  destruct (nth_error_lt ps (slen - 1)) as [v1 Ev1]; [lia|].
  assert (Hv1 : 2147483648 <= v1).
  { assert (Vps : val ps = val (firstn (slen - 1) ps) + P (slen - 1) * v1).
    { rewrite <- (val_firstn_S ps (slen - 1)) by (auto; lia). rewrite firstn_all2 by lia. reflexivity. }
    pose proof (val_bound _ (limbs_firstn (slen - 1) _ Lps)) as B1. rewrite firstn_length_le in B1 by lia.
    assert (HPs : P (slen - 1) * sv * dd <= mag s * dd) by (apply N.mul_le_mono_r; lia).
    assert (mag s * dd >= P (slen - 1) * (dd * sv)) by lia.
    assert (P (slen - 1) * (v1 + 1) > P (slen - 1) * (dd * sv)) by lia.
    assert (dd * sv < v1 + 1); [|lia]. apply (N.mul_lt_mono_pos_l (P (slen - 1))); lia. }
  destruct (d2_loop_ok slen ps v1 H2 Ss Lps Ev1 Hv1 (dlen - slen + 1) pd) as (pd' & q & E2 & S2 & L2 & Sq & Lq & EV & Hr); auto.
  { lia. }
  { (* the top limbs are below the divisor *)
    assert (Hk : (dlen - slen + 1 <= length pd)%nat) by lia.
    rewrite Vs. apply (N.mul_lt_mono_pos_l (P (dlen - slen + 1))); [pose proof (P_pos (dlen - slen + 1)); lia|].
    assert (P (dlen - slen + 1) * val (skipn (dlen - slen + 1) pd) <= val pd) by (rewrite (val_split _ pd Hk); lia).
    assert (P (dlen - slen + 1) * (mag s * dd) >= P dlen * dd).
    { assert (PD : P dlen = P (dlen - slen + 1) * P (slen - 1)) by (rewrite <- P_add; f_equal; lia). rewrite PD.
      pose proof (mag_ge s Hs ltac:(fold slen; lia)) as G. fold slen in G.
      assert (P (slen - 1) * dd <= mag s * dd) by (apply N.mul_le_mono_r; auto).
      assert (P (dlen - slen + 1) * (P (slen - 1) * dd) <= P (dlen - slen + 1) * (mag s * dd)) by (apply N.mul_le_mono_l; auto). lia. }
    pose proof (mag_lt d Hd) as G. fold dlen in G.
    assert (mag d * dd < P dlen * dd) by (apply N.mul_lt_mono_pos_r; lia). lia. }
  rewrite E2. cbn [obind].
  destruct (nth_error_lt q (dlen - slen)) as [qt Eqt]; [lia|]. rewrite Eqt. cbn [obind].
  (* the remainder *)
  rewrite Vs, Vd in EV. rewrite Vs in Hr.
  assert (Hrem : exists rm, val pd' = rm * dd /\ mag d = val q * mag s + rm /\ rm < mag s).
  { exists (mag d - val q * mag s).
    assert (val q * mag s * dd <= mag d * dd) by lia.
    assert (val q * mag s <= mag d) by (apply (N.mul_le_mono_pos_r _ _ dd); lia).
    assert (X : val pd' = (mag d - val q * mag s) * dd) by (rewrite N.mul_sub_distr_r; lia).
    split; auto. split; [lia|]. apply (N.mul_lt_mono_pos_r dd); lia. }
  destruct Hrem as (rm & Er & Ed0 & Hrm).
  assert (Hnd : exists rl k, ndiv pd' dd slen = Some (rl, k) /\ length rl = slen /\ limbs rl /\ val rl = rm /\ top slen rl = Some k).
  { unfold ndiv. change B32 with BB. rewrite (N.mod_small dd) by auto. destruct (N.eqb_spec dd 0) as [|_]; [lia|].
    assert (Vf : val (firstn slen pd') = val pd') by (apply val_firstn_small; auto; lia).
    destruct (N.eqb_spec dd 1) as [D1|D1].
    - rewrite (proj2 (Nat.leb_le slen (length pd'))) by lia. cbn [obind].
      assert (Sf : length (firstn slen pd') = slen) by (apply firstn_length_le; lia).
      destruct (top_ok slen (firstn slen pd')) as (k & Ek & _); [lia|]. rewrite Ek. cbn [obind].
      exists (firstn slen pd'), k. split; [reflexivity|]. split; [exact Sf|]. split; [apply limbs_firstn; auto|]. split; [|exact Ek].
      rewrite Vf, Er, D1. apply N.mul_1_r.
    - destruct (divw_limbs_ok slen pd' dd 0) as (rl & r & E3 & S3 & L3 & Hr3 & V3); auto; try lia.
      rewrite E3. cbn [obind fst].
      destruct (top_ok slen rl) as (k & Ek & _); [lia|]. rewrite Ek. cbn [obind].
      exists rl, k. split; [reflexivity|]. split; [exact S3|]. split; [exact L3|]. split; [|exact Ek].
      rewrite Vf, Er, N.mul_0_l, N.add_0_l in V3. exact (exact_div _ _ _ _ V3 Hr3). }
  destruct Hnd as (rl & k & E3 & S3 & L3 & V3 & T3). rewrite E3. cbn [obind fst snd].
  eexists _, _. split; [reflexivity|].
  assert (Mr : forall t n, mag (mkBn t n (overlay rl (zeros SIZE))) = rm) by (intros; unfold mag; cbn [dat]; rewrite overlay_zeros_val; auto).
  assert (Mq : forall t n, mag (mkBn t n (overlay q (zeros SIZE))) = val q) by (intros; apply overlay_zeros_val).
  rewrite Mr, Mq. split.
  { pose proof (val_bound _ L3) as B3. rewrite S3 in B3.
    apply (wfp_top _ slen).
    - apply overlay_zeros_length. lia.
    - apply limbs_overlay; auto using limbs_zeros.
    - lia.
    - rewrite overlay_zeros_val. auto.
    - unfold overlay. destruct (top_ok slen rl) as (k' & Ek & Hk & Z & TT); [lia|]. rewrite T3 in Ek. injection Ek as <-.
      rewrite <- T3. clear - S3. revert S3. set (rest := skipn _ _). clearbody rest. intros <-.
      assert (G : forall n, (n <= length rl)%nat -> top n (rl ++ rest) = top n rl); [|apply G; lia].
      induction n as [|n IH]; intros H; cbn [top]; auto. rewrite nth_error_app1 by lia.
      destruct (nth_error rl n); cbn [obind]; auto. destruct (n0 =? 0); auto. apply IH. lia. }
  split.
  { pose proof (val_bound _ Lq) as Bq. rewrite Sq in Bq.
    assert (Vq : val q = val (firstn (dlen - slen) q) + P (dlen - slen) * qt).
    { rewrite <- (val_firstn_S q (dlen - slen)) by (auto; lia). rewrite firstn_all2 by lia. reflexivity. }
    pose proof (val_bound _ (limbs_firstn (dlen - slen) _ Lq)) as B1. rewrite firstn_length_le in B1 by lia.
    pose proof (P_pos (dlen - slen)).
    apply wfp_mk.
    - apply overlay_zeros_length. lia.
    - apply limbs_overlay; auto using limbs_zeros.
    - destruct (qt =? 0); lia.
    - rewrite overlay_zeros_val. destruct (N.eqb_spec qt 0) as [->|]; [lia|auto].
    - rewrite overlay_zeros_val. destruct (N.eqb_spec qt 0) as [->|Hqt].
      + destruct (Nat.eq_dec (dlen - slen) 0) as [Z|Z]; [left; auto|right].
        (* the quotient is at least B^(m-1) *)
        pose proof (mag_ge d Hd ltac:(fold dlen; lia)) as Gd. fold dlen in Gd.
        pose proof (mag_lt s Hs) as Gs. fold slen in Gs.
        destruct (N.le_gt_cases (P (dlen - slen - 1)) (val q)) as [|L]; auto. exfalso.
        assert ((val q + 1) * mag s <= P (dlen - slen - 1) * mag s) by (apply N.mul_le_mono_r; lia).
        assert (P (dlen - slen - 1) * mag s < P (dlen - slen - 1) * P slen).
        { apply N.mul_lt_mono_pos_l; auto. pose proof (P_pos (dlen - slen - 1)). lia. }
        rewrite <- P_add in H1. replace (dlen - slen - 1 + slen)%nat with (dlen - 1)%nat in H1 by lia. lia.
      + right. replace (dlen - slen + 1 - 1)%nat with (dlen - slen)%nat by lia. rewrite Vq.
        assert (P (dlen - slen) * 1 <= P (dlen - slen) * qt) by (apply N.mul_le_mono_l; lia). lia. }
  split; [exact Ed0|]. split; [exact Hrm|]. split; left; reflexivity.
Qed.

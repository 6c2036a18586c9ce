Require Import List Arith NArith ZArith Lia Bool.
Require Import ZifyBool ZifyNat ZifyN.
Require Import Verif.Base Verif.BnModel Verif.BnSpec Verif.EndianSpec Verif.EndianProofs Verif.BnLimbProofs Verif.BnAddProofs Verif.BnMulProofs
  Verif.BnDivProofs Verif.BnShiftProofs Verif.BnTextModel Verif.BnTextSpec.
Import ListNotations.
Open Scope N_scope.

(** ** Positional values, least significant digit first *)
Definition dig (base c : N) : option N :=
  match digit_of c with Some v => if v <? base then Some v else None | None => None end.
Fixpoint nle (base : N) (ds : list N) : option N :=
  match ds with
  | [] => Some 0
  | c :: t => match dig base c, nle base t with Some v, Some n => Some (v + base * n) | _, _ => None end
  end.

Lemma numeral_app base s t : forall acc, numeral base acc (s ++ t) =
  match numeral base acc s with Some a => numeral base a t | None => None end.
Proof.
  induction s as [|c s IH]; intros acc; [reflexivity|]. cbn [app numeral].
  destruct (digit_of c) as [v|]; [|reflexivity]. destruct (v <? base); [apply IH|reflexivity].
Qed.
Lemma numeral_nle base s : numeral base 0 s = nle base (rev s).
Proof.
  induction s as [|c s IH] using rev_ind; [reflexivity|].
  rewrite numeral_app, rev_app_distr. cbn [rev app nle numeral]. rewrite IH. unfold dig.
  destruct (nle base (rev s)) as [n|]; destruct (digit_of c) as [v|]; auto.
  - destruct (v <? base); auto. f_equal. lia.
  - destruct (v <? base); auto.
Qed.
Lemma dig_lt base c v : dig base c = Some v -> v < base.
Proof. unfold dig. destruct (digit_of c) as [w|]; [|discriminate]. destruct (N.ltb_spec w base); congruence. Qed.
Lemma nle_bound base ds : base <> 0 -> forall n, nle base ds = Some n -> n < base ^ N.of_nat (length ds).
Proof.
  intros Hb. induction ds as [|c t IH]; cbn [nle length]; intros n E.
  - injection E as <-. reflexivity.
  - destruct (dig base c) as [v|] eqn:Ev; [|discriminate]. destruct (nle base t) as [m|]; [|discriminate].
    injection E as <-. specialize (IH m eq_refl). apply dig_lt in Ev.
    rewrite Nat2N.inj_succ, N.pow_succ_r'. assert (base * (m + 1) <= base * base ^ N.of_nat (length t)) by (apply N.mul_le_mono_l; lia). lia.
Qed.

(** ** Decimal literals *)
Lemma pow10_fits k : (k <= 2056)%nat -> fits (10 ^ N.of_nat k).
Proof.
  intros H. unfold fits. replace 8224 with (4 * 2056) by reflexivity. rewrite N.pow_mul_r. change (2 ^ 4) with 16.
  apply N.le_lt_trans with (10 ^ 2056); [apply N.pow_le_mono_r; lia|]. apply N.pow_lt_mono_l; lia.
Qed.
Lemma fits_le a b : a <= b -> fits b -> fits a.
Proof. unfold fits. intros. eapply N.le_lt_trans; eauto. Qed.
Lemma fits_lt a b : a < b -> fits b -> fits a.
Proof. intros H. apply fits_le. lia. Qed.

Lemma add_pos d s : wfp d -> wfp s -> neg d = false -> neg s = false -> fits (mag d + mag s) ->
  exists r, bn_add d s = Some r /\ wfp r /\ neg r = false /\ mag r = mag d + mag s.
Proof.
  intros Hd Hs Nd Ns F. unfold bn_add. rewrite Nd, Ns. cbn [xorb].
  destruct (sum_ok d s Hd Hs) as (r & E & Nr & Mr & Wr). exists r. split; [exact E|]. split; [exact (Wr F)|].
  split; [congruence|]. rewrite Mr. apply N.mod_small. exact F.
Qed.
Lemma add_times_ok v : wfp v -> neg v = false -> forall k t, wfp t -> neg t = false -> fits (mag t + N.of_nat k * mag v) ->
  exists r, add_times k t v = Some r /\ wfp r /\ neg r = false /\ mag r = mag t + N.of_nat k * mag v.
Proof.
  intros Hv Nv. induction k as [|k IH]; intros t Ht Nt F.
  - exists t. split; [reflexivity|]. split; [first [assumption|reflexivity]|]. split; [first [assumption|reflexivity]|]. clear. lia.
  - destruct (add_pos t v Ht Hv Nt Nv) as (u & E & Wu & Nu & Mu).
    { eapply fits_le; [|exact F]. clear. lia. }
    destruct (IH u Wu Nu) as (r & Er & Wr & Nr & Mr).
    { eapply fits_le; [|exact F]. rewrite Mu. clear. lia. }
    exists r. split; [cbn [add_times]; rewrite E; exact Er|]. split; [first [assumption|reflexivity]|]. split; [first [assumption|reflexivity]|]. rewrite Mr, Mu. clear. lia.
Qed.

Lemma wfp_one : wfp bn_one.
Proof.
  constructor; cbn [bn_one dat len].
  - cbn [length]. rewrite zeros_length. reflexivity.
  - constructor; [unfold limb; lia|apply limbs_zeros].
  - unfold SIZE; lia.
  - reflexivity.
  - right. cbn. lia.
Qed.
Lemma mag_one : mag bn_one = 1.
Proof. unfold mag, bn_one. cbn [dat]. rewrite val_cons, val_zeros. lia. Qed.

Lemma dec_recursive_ok rec : forall loops, (loops <= 10)%nat -> fits (N.of_nat loops * 10 ^ N.of_nat rec) -> (rec <= 2055)%nat ->
  exists r, dec_recursive rec loops bn_zero = Some r /\ wfp r /\ neg r = false /\ mag r = N.of_nat loops * 10 ^ N.of_nat rec.
Proof.
  induction rec as [|rec IH]; intros loops Hl F Hr; cbn [dec_recursive].
  - destruct (add_times_ok bn_one wfp_one eq_refl loops bn_zero wfp_zero eq_refl) as (r & E & W & Ng & M).
    { rewrite mag_zero, mag_one. change (10 ^ N.of_nat 0) with 1 in F. rewrite N.add_0_l. exact F. }
    exists r. split; [first [assumption|reflexivity]|]. split; [first [assumption|reflexivity]|]. split; [first [assumption|reflexivity]|]. rewrite M, mag_zero, mag_one. change (10 ^ N.of_nat 0) with 1. clear. lia.
  - assert (E10 : N.of_nat 10 * 10 ^ N.of_nat rec = 10 ^ N.of_nat (S rec)).
    { rewrite (Nat2N.inj_succ rec), N.pow_succ_r'. reflexivity. }
    destruct (IH 10%nat) as (v & Ev & Wv & Nv & Mv); try lia.
    { rewrite E10. apply pow10_fits. lia. }
    rewrite E10 in Mv. rewrite Ev. cbn [obind].
    destruct (add_times_ok v Wv Nv loops bn_zero wfp_zero eq_refl) as (r & E & W & Ng & M).
    { rewrite mag_zero, Mv, N.add_0_l. exact F. }
    exists r. split; [first [assumption|reflexivity]|]. split; [first [assumption|reflexivity]|]. split; [first [assumption|reflexivity]|]. rewrite M, mag_zero, Mv. clear. lia.
Qed.

Lemma dig10 c : dig 10 c = if is_digit c then Some (c - 48) else None.
Proof.
  unfold dig, digit_of, is_digit. destruct (N.leb_spec 48 c), (N.leb_spec c 57); cbn [andb];
    try (destruct (N.ltb_spec (c - 48) 10); [reflexivity|lia]);
    destruct (N.leb_spec 97 c), (N.leb_spec c 102); cbn [andb]; try (destruct (N.ltb_spec (c - 87) 10); [lia|reflexivity]);
    destruct (N.leb_spec 65 c), (N.leb_spec c 70); cbn [andb]; try (destruct (N.ltb_spec (c - 55) 10); [lia|reflexivity]); reflexivity.
Qed.

Lemma dec_loop_ok ds : forall cnt b, wfp b -> neg b = false -> mag b < 10 ^ N.of_nat cnt -> (cnt + length ds <= 2056)%nat ->
  match nle 10 ds with
  | Some n => exists r, dec_loop ds cnt b = Some (Some r) /\ wfp r /\ neg r = false /\ mag r = mag b + 10 ^ N.of_nat cnt * n
  | None => dec_loop ds cnt b = Some None
  end.
Proof.
  induction ds as [|c t IH]; intros cnt b Hb Nb Lb Hc; cbn [nle dec_loop].
  - exists b. split; [first [assumption|reflexivity]|]. split; [first [assumption|reflexivity]|]. split; [first [assumption|reflexivity]|]. clear. lia.
  - rewrite dig10. destruct (is_digit c) eqn:Dc; cbn [negb]; [|reflexivity]. cbn [length] in Hc.
    assert (Hv : c - 48 < 10) by (unfold is_digit in Dc; clear - Dc; lia).
    assert (Ev : N.of_nat (N.to_nat (c - 48)) = c - 48) by apply N2Nat.id.
    assert (Fs : (c - 48) * 10 ^ N.of_nat cnt + 10 ^ N.of_nat cnt <= 10 ^ N.of_nat (S cnt)).
    { rewrite Nat2N.inj_succ, N.pow_succ_r'. generalize (10 ^ N.of_nat cnt). intros p.
      replace ((c - 48) * p + p) with ((c - 48 + 1) * p) by (clear; lia). apply N.mul_le_mono_r. clear - Hv; lia. }
    assert (F10 : fits (10 ^ N.of_nat (S cnt))) by (apply pow10_fits; lia).
    destruct (dec_recursive_ok cnt (N.to_nat (c - 48))) as (u & Eu & Wu & Nu & Mu); try (clear - Hv Hc; lia).
    { rewrite Ev. eapply fits_le; [|exact F10]. clear - Fs; lia. }
    rewrite Ev in Mu. rewrite Eu. cbn [obind].
    destruct (add_pos b u Hb Wu Nb Nu) as (b' & Eb & Wb & Nb' & Mb).
    { rewrite Mu. eapply fits_le; [|exact F10]. clear - Fs Lb. lia. }
    rewrite Eb. cbn [obind].
    assert (Lb' : mag b' < 10 ^ N.of_nat (S cnt)) by (rewrite Mb, Mu; clear - Fs Lb; lia).
    specialize (IH (S cnt) b' Wb Nb' Lb'). assert (Hc' : (S cnt + length t <= 2056)%nat) by (clear - Hc; lia). specialize (IH Hc').
    destruct (nle 10 t) as [n|]; [|exact IH].
    destruct IH as (r & E & W & Ng & M). exists r. split; [first [assumption|reflexivity]|]. split; [first [assumption|reflexivity]|]. split; [first [assumption|reflexivity]|].
    rewrite M, Mb, Mu, Nat2N.inj_succ, N.pow_succ_r'. clear. lia.
Qed.

Lemma assign_dec_ok t s : (length s <= 2056)%nat ->
  match numeral 10 0 s with
  | Some n => exists r, assign_dec t s = Some (Some r) /\ wfp r /\ value r = signed t n
  | None => assign_dec t s = Some None
  end.
Proof.
  intros Hs. rewrite numeral_nle. unfold assign_dec. change (BITS / 4) with 2056.
  rewrite (proj2 (N.ltb_ge 2056 _)) by lia.
  pose proof (dec_loop_ok (rev s) 0 bn_zero wfp_zero eq_refl) as H. rewrite rev_length in H.
  assert (Z : mag bn_zero < 10 ^ N.of_nat 0) by reflexivity. specialize (H Z Hs). clear Z.
  destruct (nle 10 (rev s)) as [n|]; [|rewrite H; reflexivity].
  destruct H as (r & E & W & Ng & M). rewrite E. cbn [obind]. exists (set_neg r t). split; [first [assumption|reflexivity]|].
  split; [apply wfp_set_neg; auto|]. rewrite mag_zero in M. change (10 ^ N.of_nat 0) with 1 in M.
  unfold value, signed. cbn [neg set_neg]. rewrite mag_set_neg, M. replace (0 + 1 * n) with n by (clear; lia). reflexivity.
Qed.

(** ** Bytes into limbs *)
Lemma val_upd l : forall k x y, nth_error l k = Some x -> val (upd l k y) + P k * x = val l + P k * y.
Proof.
  induction l as [|a l IH]; intros [|k] x y E; cbn [nth_error] in E; try discriminate.
  - injection E as <-. cbn [upd]. rewrite !val_cons, P_0. lia.
  - cbn [upd]. rewrite !val_cons, P_S. specialize (IH k x y E). nia.
Qed.
Lemma limbs_upd l : forall k y, limbs l -> y < BB -> limbs (upd l k y).
Proof.
  induction l as [|a l IH]; intros [|k] y H Hy; cbn [upd]; auto; inversion H; subst; constructor; auto. apply IH; auto.
Qed.

Lemma P_256 k : P k = 256 ^ (4 * N.of_nat k).
Proof. unfold P. rewrite N.pow_mul_r. reflexivity. Qed.

(** Byte number [t] of a number that so far has [t] bytes. *)
Lemma or_byte data t b : length data = SIZE -> limbs data -> t < 1028 -> b < 256 -> val data < 256 ^ t ->
  exists data', or_at data (Some (N.to_nat (t / 4))) (N.shiftl b (8 * (t mod 4))) = Some data' /\ length data' = SIZE /\ limbs data' /\
    val data' = val data + b * 256 ^ t.
Proof.
  intros Sd Ld Ht Hb Hv. set (k := N.to_nat (t / 4)). set (j := t mod 4).
  assert (Hj : j < 4) by (apply N.mod_lt; lia).
  assert (Et : t = 4 * N.of_nat k + j) by (unfold k, j; rewrite N2Nat.id; apply N.div_mod; lia).
  assert (Hk : (k < SIZE)%nat) by (unfold SIZE; clearbody k j; lia). clearbody k j.
  destruct (nth_error_lt data k) as [x E]; [lia|]. unfold or_at. rewrite E. cbn [obind].
  pose proof (nth_le_val data k x E) as Hx.
  assert (Ep : 256 ^ t = P k * 2 ^ (8 * j)).
  { rewrite P_256, Et, N.pow_add_r. f_equal. rewrite N.pow_mul_r. reflexivity. }
  assert (Hx2 : x < 2 ^ (8 * j)).
  { apply N.mul_lt_mono_pos_l with (P k); [pose proof (P_pos k); lia|]. rewrite <- Ep. eapply N.le_lt_trans; eauto. }
  rewrite N.shiftl_mul_pow2, N.lor_comm, (lor_add (b * 2 ^ (8 * j)) x (8 * j)); auto.
  2:{ apply N.mod_mul. apply pow2_nz. }
  exists (upd data k (b * 2 ^ (8 * j) + x)). unfold store. rewrite (proj2 (Nat.ltb_lt _ _)) by lia.
  split; [reflexivity|]. split; [rewrite upd_length; auto|]. split.
  - apply limbs_upd; auto. apply N.lt_le_trans with (256 * 2 ^ (8 * j)).
    + assert (b * 2 ^ (8 * j) + 2 ^ (8 * j) <= 256 * 2 ^ (8 * j)).
      { replace (b * 2 ^ (8 * j) + 2 ^ (8 * j)) with ((b + 1) * 2 ^ (8 * j)) by (clear; lia). apply N.mul_le_mono_r. lia. }
      lia.
    + change 256 with (2 ^ 8). rewrite <- N.pow_add_r. change BB with (2 ^ 32). apply N.pow_le_mono_r; lia.
  - pose proof (val_upd data k x (b * 2 ^ (8 * j) + x) E) as V. rewrite Ep. clear - V. lia.
Qed.

(** ** Hexadecimal literals *)
Lemma dig16 c : dig 16 c = hex_digit c.
Proof.
  unfold dig, digit_of, hex_digit, is_digit. destruct (N.leb_spec 48 c), (N.leb_spec c 57); cbn [andb];
    try (destruct (N.ltb_spec (c - 48) 16); [reflexivity|lia]);
    destruct (N.leb_spec 97 c), (N.leb_spec c 102); cbn [andb];
    try (destruct (N.ltb_spec (c - 87) 16); [f_equal; lia|lia]);
    destruct (N.leb_spec 65 c), (N.leb_spec c 70); cbn [andb]; try (destruct (N.ltb_spec (c - 55) 16); [f_equal; lia|lia]); reflexivity.
Qed.
Lemma nib_low v : v < 16 -> N.land v 15 = v.
Proof. intros H. change 15 with (N.ones 4). rewrite N.land_ones. apply N.mod_small. exact H. Qed.
Lemma nib_high a v : a < 16 -> v < 16 -> N.lor a (N.land (N.shiftl v 4) 240) = a + 16 * v.
Proof.
  intros Ha Hv. assert (E : N.land (N.shiftl v 4) 240 = v * 2 ^ 4).
  { change 240 with (N.shiftl 15 4). rewrite <- N.shiftl_land, nib_low by auto. apply N.shiftl_mul_pow2. }
  rewrite E, N.lor_comm, (lor_add (v * 2 ^ 4) a 4); [change (2 ^ 4) with 16; lia|exact Ha|]. apply N.mod_mul. apply pow2_nz.
Qed.

Lemma put_byte_ok tmp t b : length tmp = SIZE -> limbs tmp -> t < 1028 -> b < 256 -> val tmp < 256 ^ t ->
  exists tmp', put_byte tmp (t / 4) (t mod 4) b = Some (tmp', (t + 1) / 4, (t + 1) mod 4) /\ length tmp' = SIZE /\ limbs tmp' /\
    val tmp' = val tmp + b * 256 ^ t /\ val tmp' < 256 ^ (t + 1).
Proof.
  intros Sd Ld Ht Hb Hv. destruct (or_byte tmp t b Sd Ld Ht Hb Hv) as (tmp' & E & S' & L' & V').
  exists tmp'. unfold put_byte. rewrite E. cbn [obind]. split; [|split; [exact S'|split; [exact L'|split; [exact V'|]]]].
  - clear - Ht. rewrite N.mod_mod by lia. destruct (N.eqb_spec (t mod 4) 3) as [E3|E3].
    + assert (Q : (t + 1) / 4 = t / 4 + 1 /\ (t + 1) mod 4 = 0) by lia. destruct Q as [-> ->]. reflexivity.
    + assert (Q : (t + 1) / 4 = t / 4 /\ (t + 1) mod 4 = t mod 4 + 1) by lia. destruct Q as [-> ->]. reflexivity.
  - rewrite V', N.pow_add_r, N.pow_1_r. revert Hv. generalize (256 ^ t). intros p Hp.
    assert (b * p + p <= 256 * p) by (replace (b * p + p) with ((b + 1) * p) by (clear; lia); apply N.mul_le_mono_r; lia). clear - H Hp. lia.
Qed.

Lemma hex_loop_ok n : forall ds t b tmp, (length ds <= n)%nat -> length tmp = SIZE -> limbs tmp -> val tmp < 256 ^ t ->
  2 * t + N.of_nat (length ds) <= 2056 ->
  match nle 16 ds with
  | Some v => exists tmp', hex_loop ds (2 * t) (t / 4) (t mod 4) b tmp = Some (Some tmp') /\ length tmp' = SIZE /\ limbs tmp' /\
      val tmp' = val tmp + 256 ^ t * v
  | None => hex_loop ds (2 * t) (t / 4) (t mod 4) b tmp = Some None
  end.
Proof.
  induction n as [|n IH]; intros ds t b tmp Hn Sd Ld Hv Hl.
  { destruct ds; [|cbn in Hn; lia]. cbn [nle hex_loop]. exists tmp. split; [first [assumption|reflexivity]|]. split; [first [assumption|reflexivity]|]. split; [first [assumption|reflexivity]|]. clear. lia. }
  assert (Em : (2 * t) mod 2 = 0) by (rewrite N.mul_comm; apply N.mod_mul; lia).
  assert (Em1 : (2 * t + 1) mod 2 = 1) by (rewrite N.mul_comm, N.add_comm, N.mod_add by lia; reflexivity).
  destruct ds as [|c1 [|c2 ds]].
  - cbn [nle hex_loop]. exists tmp. split; [first [assumption|reflexivity]|]. split; [first [assumption|reflexivity]|]. split; [first [assumption|reflexivity]|]. clear. lia.
  - cbn [nle]. rewrite dig16. cbn [hex_loop]. destruct (hex_digit c1) as [v|] eqn:E1; [|reflexivity].
    rewrite <- dig16 in E1. apply dig_lt in E1. rewrite Em. cbn [N.eqb negb orb]. rewrite nib_low by auto. cbn [length] in Hl.
    destruct (put_byte_ok tmp t v) as (tmp' & E & S' & L' & V' & _); auto; try (clear - E1 Hl; lia).
    rewrite E. cbn [obind]. exists tmp'. split; [first [assumption|reflexivity]|]. split; [first [assumption|reflexivity]|]. split; [first [assumption|reflexivity]|]. rewrite V'. clear. lia.
  - assert (Enle : nle 16 (c1 :: c2 :: ds) = match hex_digit c1, hex_digit c2, nle 16 ds with
      Some v1, Some v2, Some r => Some (v1 + 16 * v2 + 256 * r) | _, _, _ => None end).
    { cbn [nle]. rewrite !dig16. destruct (hex_digit c1), (hex_digit c2), (nle 16 ds); auto. f_equal. clear; lia. }
    rewrite Enle. clear Enle. cbn [hex_loop]. destruct (hex_digit c1) as [v1|] eqn:E1; [|reflexivity].
    rewrite <- dig16 in E1. apply dig_lt in E1. rewrite Em. cbn [N.eqb negb orb]. rewrite nib_low by auto.
    destruct (hex_digit c2) as [v2|] eqn:E2; [|reflexivity]. rewrite <- dig16 in E2. apply dig_lt in E2.
    rewrite Em1. cbn [N.eqb negb orb]. rewrite nib_high by auto. cbn [length] in Hl, Hn.
    destruct (put_byte_ok tmp t (v1 + 16 * v2)) as (tmp' & E & S' & L' & V' & B'); auto; try (clear - E1 E2 Hl; lia).
    rewrite E. cbn [obind]. replace (2 * t + 1 + 1) with (2 * (t + 1)) by (clear; lia).
    specialize (IH ds (t + 1) (v1 + 16 * v2) tmp'). assert (Hn' : (length ds <= n)%nat) by (clear - Hn; lia).
    assert (Hl' : 2 * (t + 1) + N.of_nat (length ds) <= 2056) by (clear - Hl; lia).
    specialize (IH Hn' S' L' B' Hl'). destruct (nle 16 ds) as [r|]; [|exact IH].
    destruct IH as (tmp2 & E'' & S'' & L'' & V''). exists tmp2. split; [first [assumption|reflexivity]|]. split; [first [assumption|reflexivity]|]. split; [first [assumption|reflexivity]|].
    rewrite V'', V', N.pow_add_r, N.pow_1_r. clear. lia.
Qed.

Lemma limbs_zeros_size : length (zeros SIZE) = SIZE. Proof. apply zeros_length. Qed.

Lemma top_size t tmp : length tmp = SIZE -> limbs tmp -> exists n, top SIZE tmp = Some n /\ wfp (mkBn t n tmp).
Proof.
  intros S L. destruct (top_ok SIZE tmp) as (k & E & _); [lia|]. exists k. split; [first [assumption|reflexivity]|].
  apply (wfp_top t SIZE tmp k); auto. rewrite <- S. apply val_bound; auto.
Qed.

Lemma assign_hex_ok t s : (length s <= 2056)%nat ->
  match numeral 16 0 s with
  | Some n => exists r, assign_hex t s = Some (Some r) /\ wfp r /\ value r = signed t n
  | None => assign_hex t s = Some None
  end.
Proof.
  intros Hs. rewrite numeral_nle. unfold assign_hex. change (BITS / 4) with 2056.
  rewrite (proj2 (N.ltb_ge 2056 _)) by lia.
  pose proof (hex_loop_ok (length (rev s)) (rev s) 0 0 (zeros SIZE) (le_n _) limbs_zeros_size (limbs_zeros SIZE)) as H.
  change (0 / 4) with 0 in H. change (0 mod 4) with 0 in H. change (2 * 0) with 0 in H. rewrite rev_length, val_zeros in H.
  assert (Z : 0 < 256 ^ 0) by reflexivity. specialize (H Z). assert (Hs' : 0 + N.of_nat (length s) <= 2056) by lia. specialize (H Hs').
  destruct (nle 16 (rev s)) as [n|]; [|rewrite H; reflexivity].
  destruct H as (tmp & E & S' & L' & V'). rewrite E. cbn [obind].
  destruct (top_size t tmp S' L') as (k & Ek & W). rewrite Ek. cbn [obind]. eexists. split; [reflexivity|]. split; [first [assumption|reflexivity]|].
  unfold value, signed, mag. cbn [neg dat]. rewrite V'. change (256 ^ 0) with 1. replace (0 + 1 * n) with n by (clear; lia). reflexivity.
Qed.

(** ** Whole literals *)
Lemma nth0_digit base s n : numeral base 0 s = Some n -> nth 0 s 0 =? 45 = false.
Proof.
  destruct s as [|c s]; [reflexivity|]. cbn [numeral nth]. unfold digit_of. destruct (N.eqb_spec c 45) as [->|]; [discriminate|reflexivity].
Qed.

Lemma assign_sign minus s : nth 0 s 0 =? 45 = false ->
  (nth 0 (sign_text minus ++ s) 0 =? 45) = minus /\ (if minus then tl (sign_text minus ++ s) else sign_text minus ++ s) = s.
Proof. destruct minus; cbn; auto. Qed.

Lemma assign_decimal minus s n : (length s <= 2056)%nat -> nth 0 s 0 <> 48 -> numeral 10 0 s = Some n ->
  exists r, bn_assign (sign_text minus ++ s) = Some (Some r) /\ wf r /\ value r = signed minus n.
Proof.
  intros Hs H0 E. destruct (assign_sign minus s (nth0_digit _ _ _ E)) as [E1 E2].
  unfold bn_assign. rewrite E1, E2. rewrite (proj2 (N.eqb_neq _ _) H0).
  pose proof (assign_dec_ok minus s Hs) as H. rewrite E in H. destruct H as (r & Er & W & V). exists r. split; [first [assumption|reflexivity]|]. split; [apply wf_wfp; assumption|assumption].
Qed.
Lemma assign_hexadecimal minus s n : (length s <= 2056)%nat -> numeral 16 0 s = Some n ->
  exists r, bn_assign (sign_text minus ++ [48; 120] ++ s) = Some (Some r) /\ wf r /\ value r = signed minus n.
Proof.
  intros Hs E. destruct (assign_sign minus ([48; 120] ++ s) eq_refl) as [E1 E2].
  unfold bn_assign. rewrite E1, E2. cbn [app nth N.eqb skipn Pos.eqb].
  pose proof (assign_hex_ok minus s Hs) as H. rewrite E in H. destruct H as (r & Er & W & V). exists r. split; [first [assumption|reflexivity]|]. split; [apply wf_wfp; assumption|assumption].
Qed.
Lemma assign_bad minus s : (length s <= 2056)%nat ->
  (numeral 16 0 s = None -> bn_assign (sign_text minus ++ [48; 120] ++ s) = Some None) /\
  (numeral 10 0 s = None -> nth 0 s 0 <> 48 -> nth 0 s 0 <> 45 -> bn_assign (sign_text minus ++ s) = Some None).
Proof.
  intros Hs. split.
  - intros E. destruct (assign_sign minus ([48; 120] ++ s) eq_refl) as [E1 E2].
    unfold bn_assign. rewrite E1, E2. cbn [app nth N.eqb skipn Pos.eqb].
    pose proof (assign_hex_ok minus s Hs) as H. rewrite E in H. exact H.
  - intros E N0 N1. destruct (assign_sign minus s (proj2 (N.eqb_neq _ _) N1)) as [E1 E2].
    unfold bn_assign. rewrite E1, E2. rewrite (proj2 (N.eqb_neq _ _) N0).
    pose proof (assign_dec_ok minus s Hs) as H. rewrite E in H. exact H.
Qed.
Lemma assign_long minus s : (2056 < length s)%nat ->
  bn_assign (sign_text minus ++ [48; 120] ++ s) = Some None /\
  (nth 0 s 0 <> 48 -> nth 0 s 0 <> 45 -> bn_assign (sign_text minus ++ s) = Some None).
Proof.
  intros Hs. split.
  - destruct (assign_sign minus ([48; 120] ++ s) eq_refl) as [E1 E2].
    unfold bn_assign. rewrite E1, E2. cbn [app nth N.eqb skipn Pos.eqb].
    unfold assign_hex. change (BITS / 4) with 2056. rewrite (proj2 (N.ltb_lt 2056 _)) by lia. reflexivity.
  - intros N0 N1. destruct (assign_sign minus s (proj2 (N.eqb_neq _ _) N1)) as [E1 E2].
    unfold bn_assign. rewrite E1, E2. rewrite (proj2 (N.eqb_neq _ _) N0).
    unfold assign_dec. change (BITS / 4) with 2056. rewrite (proj2 (N.ltb_lt 2056 _)) by lia. reflexivity.
Qed.

Require Import List Arith NArith ZArith Lia Bool.
Require Import ZifyBool ZifyNat ZifyN.
Require Import Verif.Base Verif.BnModel Verif.BnSpec Verif.EndianSpec Verif.EndianProofs Verif.BnLimbProofs Verif.BnAddProofs Verif.BnMulProofs
  Verif.BnDivProofs Verif.BnShiftProofs Verif.BnTextModel Verif.BnTextSpec Verif.BnTextProofs.
Import ListNotations.
Open Scope N_scope.

(** ** Number to text *)
Lemma digits_loop_S fuel room dup : digits_loop (S fuel) room dup =
  (c <- bn_compare dup bn_zero ;;
   if (c =? 0)%Z then Some (Some [])
   else
     r <- bn_div_word dup 10 ;;
     match r with
     | None => Some None
     | Some (rem, quo) =>
         if room =? 0 then None
         else x <- nth_error (dat rem) 0 ;; rest <- digits_loop fuel (room - 1) quo ;; Some (option_map (cons ((x mod 256 + 48) mod 256)) rest)
     end).
Proof. reflexivity. Qed.
Lemma digits_loop_ok f : forall room dup, wfp dup -> mag dup < 10 ^ N.of_nat f -> N.of_nat f <= room ->
  exists ds, digits_loop (S f) room dup = Some (Some ds) /\ nle 10 ds = Some (mag dup) /\ (length ds <= f)%nat /\
    (ds = [] <-> mag dup = 0) /\ (ds <> [] -> last ds 0 <> 48) /\ (ds <> [] -> 10 ^ N.of_nat (length ds - 1) <= mag dup).
Proof.
  induction f as [|f IH]; intros room dup Hd Hm Hr.
  - change (10 ^ N.of_nat 0) with 1 in Hm. assert (M0 : mag dup = 0) by (clear - Hm; lia).
    exists []. rewrite digits_loop_S. rewrite compare_ok by (first [assumption|apply wfp_zero|left; apply andb_false_r]). cbn [obind].
    assert (Ec : zcmp (value dup) (value bn_zero) = 0%Z) by (unfold value; rewrite M0, mag_zero; destruct (neg dup), (neg bn_zero); reflexivity).
    rewrite Ec. cbn [Z.eqb]. split; [reflexivity|]. cbn [nle length]. rewrite M0. repeat split; auto; congruence.
  - rewrite digits_loop_S. rewrite compare_ok by (first [assumption|apply wfp_zero|left; apply andb_false_r]). cbn [obind].
    destruct (N.eq_dec (mag dup) 0) as [M0|M0].
    { exists []. assert (Ec : zcmp (value dup) (value bn_zero) = 0%Z) by (unfold value; rewrite M0, mag_zero; destruct (neg dup), (neg bn_zero); reflexivity).
      rewrite Ec. cbn [Z.eqb]. split; [reflexivity|]. cbn [nle length]. rewrite M0. split; [reflexivity|]. split; [clear; lia|].
      repeat split; auto; congruence. }
    assert (Ec : (zcmp (value dup) (value bn_zero) =? 0)%Z = false).
    { unfold zcmp, value. rewrite mag_zero. cbn [bn_zero neg].
      destruct (Z.compare_spec (if neg dup then - Z.of_N (mag dup) else Z.of_N (mag dup))%Z (Z.of_N 0)) as [E|E|E]; try reflexivity.
      exfalso. clear - E M0. destruct (neg dup); lia. }
    rewrite Ec. destruct (div_word_ok dup 10 Hd) as (r & q & E & Wr & Wq & V & L & _ & Er); [lia|].
    rewrite E. cbn [obind]. destruct (N.eqb_spec room 0) as [R0|R0]; [exfalso; clear - R0 Hr; lia|].
    rewrite Er. cbn [nth_error obind].
    destruct (IH (room - 1) q Wq) as (ds & Ed & Vd & Ld & Nd & La & Lo).
    { rewrite Nat2N.inj_succ, N.pow_succ_r' in Hm. revert Hm. generalize (10 ^ N.of_nat f). clear - V. intros p Hp. lia. }
    { clear - Hr. lia. }
    rewrite Ed. cbn [obind option_map].
    assert (Ech : (mag r mod 256 + 48) mod 256 = mag r + 48) by (clear - L; rewrite !N.mod_small; try lia; rewrite N.mod_small; lia).
    rewrite Ech. exists (mag r + 48 :: ds). split; [reflexivity|]. split.
    { cbn [nle]. rewrite dig10, Vd. unfold is_digit.
      rewrite (proj2 (N.leb_le _ _)) by (clear; lia). rewrite (proj2 (N.leb_le _ _)) by (clear - L; lia). cbn [andb].
      f_equal. rewrite V. clear. lia. }
    split; [cbn [length]; clear - Ld; lia|]. split; [split; [discriminate|intros; congruence]|]. split.
    { intros _. destruct ds as [|d ds].
      - cbn [last]. assert (Q0 : mag q = 0) by (apply Nd; reflexivity). rewrite Q0 in V. clear - V M0. lia.
      - change (last (mag r + 48 :: d :: ds) 0) with (last (d :: ds) 0). apply La. discriminate. }
    { intros _. cbn [length]. destruct ds as [|d ds].
      - cbn [length Nat.sub N.of_nat]. rewrite N.pow_0_r. clear - M0. lia.
      - cbn [length] in *. replace (S (S (length ds)) - 1)%nat with (S (S (length ds) - 1)) by (clear; lia).
        rewrite Nat2N.inj_succ, N.pow_succ_r'. specialize (Lo ltac:(discriminate)). revert Lo. generalize (10 ^ N.of_nat (S (length ds) - 1)).
        clear - V. intros p Hp. lia. }
Qed.

Lemma limbs_digits n : P n <= 10 ^ N.of_nat (10 * n).
Proof.
  unfold P. rewrite Nat2N.inj_mul, N.pow_mul_r. apply N.pow_le_mono_l. change (10 ^ N.of_nat 10) with 10000000000. lia.
Qed.

(** ** The swapping loop reverses *)
Lemma swap_loop_ok l : forall k i buf, length buf = length l -> (i + k = Nat.div2 (length l))%nat ->
  (forall j, nth j buf 0 = if ((j <? i) || ((length l <=? j + i) && (j <? length l)))%nat then nth (length l - 1 - j) l 0 else nth j l 0) ->
  swap_loop k i buf = Some (rev l).
Proof.
  assert (D2 : (2 * Nat.div2 (length l) <= length l < 2 * Nat.div2 (length l) + 2)%nat).
  { rewrite Nat.div2_div. pose proof (Nat.div_mod (length l) 2). pose proof (Nat.mod_upper_bound (length l) 2). lia. }
  induction k as [|k IH]; intros i buf Sb Hk Hj; cbn [swap_loop].
  - f_equal. apply (nth_ext _ _ 0 0); [rewrite rev_length; auto|]. intros j Lj. rewrite rev_nth by lia. rewrite Hj.
    replace (length l - S j)%nat with (length l - 1 - j)%nat by lia.
    destruct (Nat.ltb_spec j i) as [A|A]; cbn [orb]; [reflexivity|].
    destruct (Nat.leb_spec (length l) (j + i)) as [B|B]; cbn [andb]; [destruct (Nat.ltb_spec j (length l)); [reflexivity|lia]|].
    f_equal. lia.
  - assert (Hi : (i < length buf)%nat) by lia.
    assert (Hi2 : (length buf - i - 1 < length buf)%nat) by lia.
    rewrite (nth_error_nth' buf 0 Hi), (nth_error_nth' buf 0 Hi2). cbn [obind].
    unfold store. rewrite (proj2 (Nat.ltb_lt _ _) Hi). cbn [obind]. rewrite upd_length.
    rewrite (proj2 (Nat.ltb_lt _ _) Hi2). cbn [obind].
    apply IH; [rewrite !upd_length; auto|lia|].
    intros j. destruct (Nat.eq_dec j (length buf - i - 1)) as [->|N1].
    + rewrite nth_upd_eq by (rewrite upd_length; lia). rewrite Hj.
      rewrite (proj2 (Nat.ltb_ge i i)) by lia. cbn [orb]. rewrite (proj2 (Nat.leb_gt (length l) (i + i))) by lia. cbn [andb].
      rewrite (proj2 (Nat.leb_le (length l) (length buf - i - 1 + S i))) by lia.
      rewrite (proj2 (Nat.ltb_lt (length buf - i - 1) (length l))) by lia. rewrite orb_true_r. f_equal. lia.
    + rewrite nth_upd_neq by lia. destruct (Nat.eq_dec j i) as [->|N2].
      * rewrite nth_upd_eq by lia. rewrite Hj.
        rewrite (proj2 (Nat.ltb_lt i (S i))) by lia. cbn [orb].
        destruct (Nat.ltb_spec (length buf - i - 1) i); [lia|]. cbn [orb].
        rewrite (proj2 (Nat.leb_gt (length l) (length buf - i - 1 + i))) by lia. cbn [andb]. f_equal. lia.
      * rewrite nth_upd_neq by lia. rewrite Hj.
        assert (E : ((j <? i) || ((length l <=? j + i) && (j <? length l)))%nat = ((j <? S i) || ((length l <=? j + S i) && (j <? length l)))%nat).
        { clear - N1 N2 Sb. lia. }
        rewrite E. reflexivity.
Qed.
Lemma swap_rev l : swap_loop (Nat.div2 (length l)) 0 l = Some (rev l).
Proof.
  apply swap_loop_ok; auto. intros j. rewrite (proj2 (Nat.ltb_ge j 0)) by lia. cbn [orb]. rewrite Nat.add_0_r.
  destruct (Nat.leb_spec (length l) j), (Nat.ltb_spec j (length l)); cbn [andb]; auto; lia.
Qed.

Lemma last_rev_hd (ds : list N) : nth 0 (rev ds) 0 = last ds 0.
Proof.
  destruct ds as [|x ds _] using rev_ind; [reflexivity|]. rewrite rev_app_distr, last_last. reflexivity.
Qed.

Lemma tostring_spec n : wfp n -> neg n = false \/ mag n <> 0 ->
  exists ds, bn_tostring n = Some (Some (sign_text (neg n) ++ ds)) /\ numeral 10 0 ds = Some (mag n) /\
    (mag n = 0 -> ds = [48]) /\ (mag n <> 0 -> nth 0 ds 0 <> 48 /\ ds <> [] /\ 10 ^ N.of_nat (length ds - 1) <= mag n).
Proof.
  intros Hn Hz. unfold bn_tostring. set (size := N.max 1 (64 * N.of_nat (len n))).
  destruct (digits_loop_ok (10 * len n) (size + 1) n Hn) as (ds & E & V & L & N0 & La & Lo).
  { eapply N.lt_le_trans; [apply mag_lt; auto|]. apply limbs_digits. }
  { unfold size. lia. }
  replace (10 * len n + 1)%nat with (S (10 * len n)) by lia. rewrite E. cbn [obind].
  rewrite swap_rev. cbn [obind]. rewrite rev_app_distr.
  assert (Es : rev (if neg n then [45] else []) = sign_text (neg n)) by (destruct (neg n); reflexivity). rewrite Es.
  destruct (N.eq_dec (mag n) 0) as [M0|M0].
  - assert (D : ds = []) by (apply N0; auto). destruct Hz as [Hz|Hz]; [|congruence]. rewrite D, Hz. cbn [rev sign_text app length].
    exists [48]. split; [|split; [rewrite M0; reflexivity|split; [auto|congruence]]].
    rewrite (proj2 (N.leb_le _ _)); [reflexivity|unfold size; lia].
  - assert (D : ds <> []) by (intros D; apply M0, N0; auto).
    exists (rev ds).
    assert (Eb : match sign_text (neg n) ++ rev ds with [] => [48] | _ => sign_text (neg n) ++ rev ds end = sign_text (neg n) ++ rev ds).
    { destruct (sign_text (neg n) ++ rev ds) eqn:X; [|reflexivity]. apply app_eq_nil in X. destruct X as [_ X].
      exfalso. apply D. rewrite <- (rev_involutive ds), X. reflexivity. }
    rewrite Eb. split; [|split; [|split; [congruence|]]].
    + assert (0 < len n)%nat by (destruct (Nat.eq_dec (len n) 0) as [Z|Z]; [apply (mag_0 n Hn) in Z; congruence|lia]).
      assert (length (sign_text (neg n)) <= 1)%nat by (destruct (neg n); cbn; lia).
      rewrite (proj2 (N.leb_le _ _)); [reflexivity|]. rewrite app_length, rev_length. unfold size. lia.
    + rewrite numeral_nle, rev_involutive. exact V.
    + intros _. split; [rewrite last_rev_hd; auto|]. split; [|rewrite rev_length; auto].
      intros X. apply D. rewrite <- (rev_involutive ds), X. reflexivity.
Qed.

Lemma text_round_trip n : wf n -> neg n = false \/ value n <> 0%Z -> mag n < 10 ^ 2056 ->
  exists s b, bn_tostring n = Some (Some s) /\ bn_assign s = Some (Some b) /\ wf b /\ value b = value n.
Proof.
  intros Hn Hz Hm. apply wf_wfp in Hn.
  assert (Hz' : neg n = false \/ mag n <> 0).
  { destruct Hz as [Hz|Hz]; auto. right. intros M. apply Hz. unfold value. rewrite M. destruct (neg n); reflexivity. }
  destruct (tostring_spec n Hn Hz') as (ds & E & V & Z0 & Znz). exists (sign_text (neg n) ++ ds).
  destruct (N.eq_dec (mag n) 0) as [M0|M0].
  - destruct Hz' as [Ng|Ng]; [|congruence]. rewrite (Z0 M0), Ng in *. exists bn_zero. split; [exact E|].
    split; [vm_compute; reflexivity|]. split; [apply wf_wfp, wfp_zero|]. unfold value. rewrite Ng, M0. reflexivity.
  - destruct (Znz M0) as (H0 & Hne & Hlo).
    assert (Hl : (length ds <= 2056)%nat).
    { assert (N.of_nat (length ds - 1) < 2056).
      { apply (N.pow_lt_mono_r_iff 10); [lia|]. eapply N.le_lt_trans; eauto. } lia. }
    destruct (assign_decimal (neg n) ds (mag n) Hl H0 V) as (b & Eb & Wb & Vb). exists b.
    split; [exact E|]. split; [exact Eb|]. split; [exact Wb|]. exact Vb.
Qed.

(** ** Octet strings *)
Lemma be_value_app a b : be_value (a ++ b) = be_value a * 256 ^ N.of_nat (length b) + be_value b.
Proof.
  induction a as [|x a IH]; [reflexivity|]. cbn [app be_value]. rewrite IH, app_length, Nat2N.inj_add, N.pow_add_r. lia.
Qed.
Lemma be_value_repeat0 k : be_value (repeat 0 k) = 0.
Proof. induction k as [|k IH]; [reflexivity|]. cbn [repeat be_value]. rewrite IH. lia. Qed.
Lemma limb_bytes_value x : x < BB -> be_value (limb_bytes x) = x.
Proof.
  intros H. unfold limb_bytes. rewrite !land255, !N.shiftr_div_pow2. cbn [be_value length].
  change (2 ^ 24) with 16777216. change (2 ^ 16) with 65536. change (2 ^ 8) with 256.
  change (256 ^ N.of_nat 3) with 16777216. change (256 ^ N.of_nat 2) with 65536. change (256 ^ N.of_nat 1) with 256. change (256 ^ N.of_nat 0) with 1.
  lia.
Qed.
Lemma limb_bytes_bytes x : bytes (limb_bytes x).
Proof.
  unfold limb_bytes. repeat constructor; unfold is_byte; rewrite land255; apply N.mod_lt; lia.
Qed.
Lemma flat_limbs l : limbs l -> be_value (flat_map limb_bytes (rev l)) = val l /\ length (flat_map limb_bytes (rev l)) = (4 * length l)%nat /\
  bytes (flat_map limb_bytes (rev l)).
Proof.
  induction 1 as [|x l Hx Hl (IH & IHl & IHb)]; [repeat split; constructor|]. cbn [rev]. rewrite flat_map_app. cbn [flat_map]. rewrite app_nil_r.
  split; [|split].
  - rewrite be_value_app, IH, limb_bytes_value by exact Hx. cbn [limb_bytes length]. change (256 ^ N.of_nat 4) with BB. rewrite val_cons. lia.
  - rewrite app_length, IHl. cbn [limb_bytes length]. lia.
  - unfold bytes. apply Forall_app. split; [exact IHb|apply limb_bytes_bytes].
Qed.

Lemma i2osp_ok b n : wf b -> neg b = false -> (4 * len b <= n)%nat ->
  exists s, bn_i2osp b n = Some s /\ length s = n /\ bytes s /\ be_value s = mag b.
Proof.
  intros Hb Ng Hn. apply wf_wfp in Hb. unfold bn_i2osp. rewrite Ng. cbn [orb]. rewrite (proj2 (Nat.ltb_ge _ _)) by lia.
  eexists. split; [reflexivity|].
  destruct (flat_limbs (firstn (len b) (dat b))) as (V & L & Bt); [apply limbs_firstn, wf_limbs; auto|].
  rewrite firstn_length_le in L by (rewrite (wf_size _ Hb); apply (wf_len _ Hb)).
  split; [rewrite app_length, repeat_length, L; lia|]. split.
  - unfold bytes. apply Forall_app. split; [|exact Bt]. apply Forall_forall. intros x Hx. apply repeat_spec in Hx. subst. unfold is_byte. lia.
  - rewrite be_value_app, be_value_repeat0, V, <- mag_firstn by auto. lia.
Qed.
Lemma i2osp_refuses b n : neg b = true \/ (n < 4 * len b)%nat -> bn_i2osp b n = None.
Proof.
  intros H. unfold bn_i2osp. destruct (neg b); [reflexivity|]. destruct H as [H|H]; [discriminate|].
  rewrite (proj2 (Nat.ltb_lt _ _)) by lia. reflexivity.
Qed.

Lemma os2ip_loop_ok bs : forall t data, bytes bs -> length data = SIZE -> limbs data -> val data < 256 ^ t -> t + N.of_nat (length bs) <= 1028 ->
  exists data' t', os2ip_loop bs (N.to_nat (t / 4)) (8 * (t mod 4)) data = Some (data', N.to_nat (t' / 4), 8 * (t' mod 4)) /\
    t' = t + N.of_nat (length bs) /\ length data' = SIZE /\ limbs data' /\ val data' = val data + 256 ^ t * be_value (rev bs) /\ val data' < 256 ^ t'.
Proof.
  induction bs as [|c bs IH]; intros t data Hb Sd Ld Hv Hl.
  - exists data, t. cbn [os2ip_loop length rev be_value]. split; [reflexivity|]. split; [clear; lia|]. split; [exact Sd|]. split; [exact Ld|].
    split; [clear; lia|exact Hv].
  - inversion Hb as [|? ? Hc Hb']; subst. unfold is_byte in Hc. cbn [length] in Hl. cbn [os2ip_loop].
    destruct (or_byte data t c) as (data1 & E1 & S1 & L1 & V1); auto; [clear - Hl; lia|]. rewrite E1. cbn [obind].
    assert (B1 : val data1 < 256 ^ (t + 1)).
    { rewrite V1, N.pow_add_r, N.pow_1_r. revert Hv. generalize (256 ^ t). intros p Hp.
      assert (c * p + p <= 256 * p) by (replace (c * p + p) with ((c + 1) * p) by (clear; lia); apply N.mul_le_mono_r; lia). clear - H Hp. lia. }
    destruct (IH (t + 1) data1) as (data' & t' & E & Et & S' & L' & V' & B'); auto; [clear - Hl; lia|].
    exists data', t'. split; [|split; [rewrite Et; cbn [length]; clear; lia|]].
    + destruct (N.leb_spec 24 (8 * (t mod 4))) as [G|G].
      * assert (Q : (t + 1) / 4 = t / 4 + 1 /\ (t + 1) mod 4 = 0) by (clear - G; lia). destruct Q as [Q1 Q2]. rewrite Q1, Q2 in E.
        assert (Hk : (N.to_nat (t / 4) < length data1)%nat).
        { rewrite S1. unfold SIZE. clear - Hl. lia. }
        destruct (nth_error_lt data1 _ Hk) as [x Ex]. rewrite Ex. cbn [obind].
        rewrite mask32_mod, N.mod_small by (exact (limbs_nth _ _ _ L1 Ex)).
        unfold store. rewrite (proj2 (Nat.ltb_lt _ _) Hk). cbn [obind]. rewrite (upd_nth_error_same data1 _ _ Ex).
        replace (S (N.to_nat (t / 4))) with (N.to_nat (t / 4 + 1)) by (clear; lia). exact E.
      * assert (Q : (t + 1) / 4 = t / 4 /\ (t + 1) mod 4 = t mod 4 + 1) by (clear - G; lia). destruct Q as [Q1 Q2]. rewrite Q1, Q2 in E.
        replace (8 * (t mod 4) + 8) with (8 * (t mod 4 + 1)) by (clear; lia). exact E.
    + split; [exact S'|]. split; [exact L'|]. split; [|exact B'].
      rewrite V', V1. cbn [rev]. rewrite be_value_app. cbn [be_value length]. change (256 ^ N.of_nat 1) with 256. change (256 ^ N.of_nat 0) with 1.
      rewrite N.pow_add_r, N.pow_1_r. clear. lia.
Qed.

(** The limb count os2ip stores is that of the string, whether or not it starts with zeros. *)
Lemma os2ip_spec s : bytes s -> (length s <= 1028)%nat ->
  exists b, bn_os2ip s = Some (Some b) /\ neg b = false /\ mag b = be_value s /\ len b = ((length s + 3) / 4)%nat /\
    length (dat b) = SIZE /\ limbs (dat b) /\ mag b < P (len b).
Proof.
  intros Hb Hl. unfold bn_os2ip. rewrite (proj2 (Nat.ltb_ge _ _)) by (unfold SIZE; lia).
  destruct (os2ip_loop_ok (rev s) 0 (zeros SIZE)) as (data & t & E & Et & S' & L' & V' & B').
  { unfold bytes. apply Forall_rev. exact Hb. } { apply zeros_length. } { apply limbs_zeros. } { rewrite val_zeros. reflexivity. }
  { rewrite rev_length. lia. }
  change (N.to_nat (0 / 4)) with 0%nat in E. change (8 * (0 mod 4)) with 0 in E. rewrite E. cbn [obind].
  rewrite rev_length in Et. rewrite rev_involutive, val_zeros in V'. change (256 ^ 0) with 1 in V'.
  eexists. split; [reflexivity|]. split; [reflexivity|]. split; [unfold mag; cbn [dat]; rewrite V'; clear; lia|].
  cbn [len dat]. assert (EL : (if (8 * (t mod 4) =? 0) then N.to_nat (t / 4) else S (N.to_nat (t / 4))) = ((length s + 3) / 4)%nat).
  { rewrite Et. clear. destruct (N.eqb_spec (8 * ((0 + N.of_nat (length s)) mod 4)) 0); lia. }
  rewrite EL. split; [reflexivity|]. split; [exact S'|]. split; [exact L'|]. unfold mag. cbn [dat].
  eapply N.lt_le_trans; [exact B'|]. rewrite P_256, Et. apply N.pow_le_mono_r; [lia|]. clear. lia.
Qed.

Lemma be_value_inj a : forall b, length a = length b -> bytes a -> bytes b -> be_value a = be_value b -> a = b.
Proof.
  induction a as [|x a IH]; intros [|y b] L Ha Hb E; try discriminate; auto.
  injection L as L. inversion Ha as [|? ? Hx Ha']; inversion Hb as [|? ? Hy Hb']; subst. cbn [be_value] in E. rewrite L in E.
  pose proof (be_value_bound a Ha') as B1. pose proof (be_value_bound b Hb') as B2. rewrite L in B1.
  assert (x = y /\ be_value a = be_value b).
  { revert E B1 B2. generalize (256 ^ N.of_nat (length b)). clear. intros p E B1 B2.
    destruct (N.lt_trichotomy x y) as [G|[G|G]].
    - exfalso. assert ((x + 1) * p <= y * p) by (apply N.mul_le_mono_r; lia). lia.
    - subst. split; auto. lia.
    - exfalso. assert ((y + 1) * p <= x * p) by (apply N.mul_le_mono_r; lia). lia. }
  destruct H as [-> H]. f_equal. apply IH; auto.
Qed.

(** With the first byte of the top limb group non-zero the structure is canonical. *)
Lemma os2ip_canonical s b : bytes s -> (length s <= 1028)%nat -> bn_os2ip s = Some (Some b) ->
  s = [] \/ 256 ^ N.of_nat (4 * ((length s - 1) / 4)) <= be_value s -> wf b.
Proof.
  intros Hb Hl E Hc. destruct (os2ip_spec s Hb Hl) as (b' & E' & Ng & M & L & Sd & Ld & B). rewrite E in E'. injection E' as <-.
  apply wf_wfp. destruct b as [t n d]. cbn [dat len neg] in *. apply wfp_mk; auto.
  - rewrite L. unfold SIZE. apply Nat.lt_succ_r. apply Nat.div_lt_upper_bound; lia.
  - destruct Hc as [->|Hc]; [left; rewrite L; reflexivity|]. destruct (Nat.eq_dec n 0) as [Z|Z]; [left; auto|right].
    unfold mag in *. cbn [dat] in *. rewrite M.
    assert (En : (n - 1)%nat = ((length s - 1) / 4)%nat).
    { rewrite L in *. clear - Z. lia. }
    rewrite P_256, En. replace (4 * N.of_nat ((length s - 1) / 4)) with (N.of_nat (4 * ((length s - 1) / 4))) by (clear; lia). exact Hc.
Qed.

Lemma octet_round_trip s n : bytes s -> (length s <= 1028)%nat -> (4 * ((length s + 3) / 4) <= n)%nat ->
  exists b, bn_os2ip s = Some (Some b) /\ bn_i2osp b n = Some (repeat 0 (n - length s) ++ s).
Proof.
  intros Hb Hl Hn. destruct (os2ip_spec s Hb Hl) as (b & E & Ng & M & L & Sd & Ld & B). exists b. split; auto.
  assert (Hlen : (len b <= SIZE)%nat).
  { rewrite L. unfold SIZE. apply Nat.lt_succ_r. apply Nat.div_lt_upper_bound; lia. }
  assert (Hs : (length s <= 4 * len b)%nat).
  { rewrite L. clear. lia. }
  unfold bn_i2osp. rewrite Ng. cbn [orb]. rewrite (proj2 (Nat.ltb_ge _ _)) by lia. f_equal.
  destruct (flat_limbs (firstn (len b) (dat b))) as (V & Lf & Bt); [apply limbs_firstn; auto|].
  rewrite firstn_length_le in Lf by lia.
  assert (Mf : val (firstn (len b) (dat b)) = mag b).
  { unfold mag in *. rewrite (val_split (len b) (dat b)) in B |- * by lia. apply lead0 in B. rewrite B. lia. }
  apply be_value_inj.
  - rewrite !app_length, !repeat_length, Lf. lia.
  - unfold bytes. apply Forall_app. split; [|exact Bt]. apply Forall_forall. intros x Hx. apply repeat_spec in Hx. subst. unfold is_byte. lia.
  - unfold bytes. apply Forall_app. split; [|exact Hb]. apply Forall_forall. intros x Hx. apply repeat_spec in Hx. subst. unfold is_byte. lia.
  - rewrite !be_value_app, !be_value_repeat0, V, Mf, M. lia.
Qed.


(** ** Numbers whose text is too long to be read back *)
Lemma nle_lt base ds : forall n, nle base ds = Some n -> n < base ^ N.of_nat (length ds).
Proof.
  induction ds as [|c ds IH]; intros n H; cbn [nle length] in *; [injection H as <-; reflexivity|].
  unfold dig in H. destruct (digit_of c) as [v|]; [|discriminate].
  destruct (N.ltb_spec v base) as [Hv|]; [|discriminate]. destruct (nle base ds) as [m|]; [|discriminate]. injection H as <-.
  specialize (IH m eq_refl). rewrite Nat2N.inj_succ, N.pow_succ_r'. revert IH. generalize (base ^ N.of_nat (length ds)). intros p Hp.
  assert (m + 1 <= p) by lia. nia.
Qed.
Lemma text_too_long n : wf n -> 10 ^ 2056 <= mag n -> exists s, bn_tostring n = Some (Some s) /\ bn_assign s = Some None.
Proof.
  intros Hn Hm. apply wf_wfp in Hn.
  assert (M0 : mag n <> 0) by (intros E; rewrite E in Hm; vm_compute in Hm; apply Hm; reflexivity).
  destruct (tostring_spec n Hn (or_intror M0)) as (ds & E & V & _ & Znz). destruct (Znz M0) as (H0 & Hne & _).
  exists (sign_text (neg n) ++ ds). split; [exact E|].
  assert (L : (2056 < length ds)%nat).
  { pose proof V as V'. rewrite numeral_nle in V. apply nle_lt in V. rewrite rev_length in V.
    destruct (N.lt_ge_cases 2056 (N.of_nat (length ds))) as [L|L]; [clear - L; lia|exfalso].
    apply (N.pow_le_mono_r 10) in L; [|discriminate]. apply (N.lt_irrefl (mag n)).
    eapply N.lt_le_trans; [exact V|]. eapply N.le_trans; [exact L|exact Hm]. }
  apply (assign_long (neg n) ds L); [exact H0|]. pose proof (nth0_digit _ _ _ V) as D. apply N.eqb_neq. exact D.
Qed.

Lemma tostring_numeral n : wf n -> neg n = false \/ value n <> 0%Z ->
  exists ds, bn_tostring n = Some (Some (sign_text (neg n) ++ ds)) /\ numeral 10 0 ds = Some (mag n) /\
    (ds = [48] \/ nth 0 ds 0 <> 48 /\ ds <> []).
Proof.
  intros Hn Hz. assert (Hz' : neg n = false \/ mag n <> 0).
  { destruct Hz as [Hz|Hz]; auto. right. intros M. apply Hz. unfold value. rewrite M. destruct (neg n); reflexivity. }
  apply wf_wfp in Hn. destruct (tostring_spec n Hn Hz') as (ds & E & V & Z0 & Znz). exists ds. split; [exact E|]. split; [exact V|].
  destruct (N.eq_dec (mag n) 0) as [M|M]; [left; auto|right; destruct (Znz M) as (H1 & H2 & _); auto].
Qed.
Lemma os2ip_value s : bytes s -> (length s <= 1028)%nat -> exists b, bn_os2ip s = Some (Some b) /\ value b = Z.of_N (be_value s).
Proof.
  intros Hb Hl. destruct (os2ip_spec s Hb Hl) as (b & E & Ng & M & _). exists b. split; [exact E|]. unfold value. rewrite Ng, M. reflexivity.
Qed.
Lemma os2ip_long s : (1028 < length s)%nat -> bn_os2ip s = Some None.
Proof. intros H. unfold bn_os2ip. rewrite (proj2 (Nat.ltb_lt _ _)) by (unfold SIZE; lia). reflexivity. Qed.
Lemma integer_round_trip b n : wf b -> neg b = false -> (4 * len b <= n)%nat -> (n <= 1028)%nat ->
  exists s b', bn_i2osp b n = Some s /\ bn_os2ip s = Some (Some b') /\ value b' = value b.
Proof.
  intros Hb Ng Hn Hl. destruct (i2osp_ok b n Hb Ng Hn) as (s & E & L & Bs & V).
  destruct (os2ip_value s Bs) as (b' & E' & V'); [lia|]. exists s, b'. split; [exact E|]. split; [exact E'|].
  rewrite V', V. unfold value. rewrite Ng. reflexivity.
Qed.

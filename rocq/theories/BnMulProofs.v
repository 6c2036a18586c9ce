Require Import List Arith NArith ZArith Lia Bool.
Require Import ZifyBool ZifyNat ZifyN.
Require Import Verif.Base Verif.BnModel Verif.BnSpec Verif.BnLimbProofs Verif.BnAddProofs.
Import ListNotations.
Open Scope N_scope.

Lemma limb_prod x y : x < BB -> y < BB -> x * y <= 18446744065119617025.
Proof. intros. change 18446744065119617025 with (4294967295 * 4294967295). apply N.mul_le_mono; lia. Qed.

Lemma mulw_limbs_ok n : forall a w c, (n <= length a)%nat -> limbs a -> w < BB -> c < BB ->
  exists r cf, mulw_limbs n a w c = Some (r, cf) /\ length r = n /\ limbs r /\ cf < BB /\
    val r + cf * P n = val (firstn n a) * w + c.
Proof.
  induction n as [|n IH]; intros a w c Ha La Hw Hc.
  - exists [], c. cbn [mulw_limbs firstn length]. rewrite P_0, val_nil. repeat split; auto; [constructor|lia].
  - destruct a as [|x a]; [cbn in Ha; lia|]. inversion La as [|? ? Hx La']; subst. unfold limb in Hx.
    pose proof (limb_prod x w Hx Hw).
    cbn [mulw_limbs firstn]. rewrite w64_small by lia. change B32 with BB.
    destruct (IH a w ((x * w + c) / BB)) as (r & cf & E & Hr & Lr & Hcf & V); auto; [cbn in Ha; lia| |].
    { apply N.div_lt_upper_bound; lia. }
    rewrite E. cbn [obind fst snd]. exists ((x * w + c) mod BB :: r), cf.
    repeat split; auto; [cbn; lia|constructor; auto; apply N.mod_lt; lia|].
    rewrite !val_cons, P_S. pose proof (N.div_mod (x * w + c) BB ltac:(lia)).
    replace ((x * w + c) mod BB + BB * val r + cf * (BB * P n)) with ((x * w + c) mod BB + BB * (val r + cf * P n)) by lia.
    rewrite V. lia.
Qed.

Lemma mulw_carry_ok d l c : wfp d -> length l = len d -> limbs l -> c < BB ->
  exists data n, mulw_carry 3 (l ++ zeros (SIZE - len d)) (len d) (len d) c = Some (data, n) /\
    length data = SIZE /\ limbs data /\ (n <= SIZE)%nat /\
    (val data = (val l + c * P (len d)) mod P SIZE) /\
    (n = len d /\ (c = 0 \/ len d = SIZE) \/ n = S (len d) /\ 1 <= c).
Proof.
  intros Hd Hl Ll Hc. pose proof (wf_len _ Hd) as Ld.
  pose proof (val_bound _ Ll) as Bl. rewrite Hl in Bl.
  assert (Lz : limbs (l ++ zeros (SIZE - len d))) by (apply limbs_app; auto using limbs_zeros).
  assert (Sz : length (l ++ zeros (SIZE - len d)) = SIZE) by (rewrite app_length, zeros_length; lia).
  assert (Vz : val (l ++ zeros (SIZE - len d)) = val l) by (rewrite val_app, val_zeros; lia).
  pose proof (P_mono _ _ Ld).
  cbn [mulw_carry]. destruct (N.eqb_spec c 0) as [->|Hc0].
  - eexists _, _. split; [reflexivity|]. repeat split; auto. rewrite Vz. symmetry. rewrite N.add_0_r. apply N.mod_small. lia.
  - destruct (Nat.ltb_spec (len d) SIZE) as [L|L].
    + assert (Hz : l ++ zeros (SIZE - len d) = l ++ 0 :: zeros (SIZE - S (len d))).
      { f_equal. unfold zeros. replace (SIZE - len d)%nat with (S (SIZE - S (len d))) by lia. reflexivity. }
      rewrite Hz. rewrite nth_error_app2 by lia. rewrite Hl, Nat.sub_diag. cbn [nth_error obind].
      rewrite w64_small by lia. rewrite N.add_0_l. change B32 with BB. rewrite N.mod_small by lia.
      unfold store. rewrite <- Hz, Sz. replace (len d <? SIZE)%nat with true by (symmetry; apply Nat.ltb_lt; lia). cbn [obind].
      rewrite N.div_small by lia. change (0 =? 0) with true. cbn [obind].
      rewrite Hz, upd_app2 by lia. rewrite Hl, Nat.sub_diag. cbn [upd].
      eexists _, _. split; [reflexivity|].
      assert (Vd : val (l ++ c :: zeros (SIZE - S (len d))) = val l + c * P (len d)) by (rewrite val_app, val_cons, val_zeros, Hl; lia).
      assert (Ld' : limbs (l ++ c :: zeros (SIZE - S (len d)))).
      { apply limbs_app. split; auto. constructor; auto. apply limbs_zeros. }
      assert (Sd : length (l ++ c :: zeros (SIZE - S (len d))) = SIZE).
      { rewrite app_length. cbn [length]. rewrite zeros_length. lia. }
      repeat split; auto.
      * rewrite <- Vd. symmetry. apply N.mod_small. pose proof (val_bound _ Ld') as BB'. rewrite Sd in BB'. exact BB'.
      * right. split; auto. lia.
    + assert (Hs : len d = SIZE) by lia.
      eexists _, _. split; [reflexivity|]. repeat split; auto.
      rewrite Vz, Hs in *. rewrite N.mod_add by apply P_nz. symmetry. apply N.mod_small. lia.
Qed.

Lemma mul_word_ok d w : wfp d -> 1 <= w < BB ->
  exists r, bn_mul_word d w = Some r /\ neg r = neg d /\ mag r = (mag d * w) mod 2 ^ 8224 /\
    (fits (mag d * w) -> wfp r).
Proof.
  intros Hd Hw. pose proof (wf_len _ Hd) as Ld.
  unfold bn_mul_word. change B32 with BB. rewrite (N.mod_small w) by lia.
  destruct (mulw_limbs_ok (len d) (dat d) w 0) as (l & c & E & Hl & Ll & Hc & V); side.
  rewrite E. cbn [obind]. rewrite <- mag_firstn in V by auto.
  assert (Hov : overlay l (dat d) = l ++ zeros (SIZE - len d)) by (unfold overlay; rewrite Hl, (wf_high _ Hd); reflexivity).
  rewrite Hov. destruct (mulw_carry_ok d l c Hd Hl Ll Hc) as (data & n & E2 & Sd & Lda & Hn & Vd & Hcase).
  rewrite E2. cbn [obind fst snd]. eexists. split; [reflexivity|]. cbn [neg]. split; auto.
  unfold mag at 1. cbn [dat]. rewrite Vd, V, N.add_0_r, P_fits. split; auto.
  intros F. pose proof (val_bound _ Ll) as Bl. rewrite Hl in Bl.
  rewrite V, N.add_0_r, P_fits, (N.mod_small _ _ F) in Vd.
  assert (G : len d = 0%nat \/ P (len d - 1) <= mag d * w).
  { destruct (Nat.eq_dec (len d) 0); auto. right. pose proof (mag_ge d Hd). nia. }
  apply wfp_mk; auto.
  - rewrite Vd. rewrite N.add_0_r in V. destruct Hcase as [[-> [->|Hs]]|[-> Hc1]].
    + lia.
    + rewrite Hs, P_fits. exact F.
    + rewrite P_S. nia.
  - rewrite Vd. rewrite N.add_0_r in V. destruct Hcase as [[-> _]|[-> Hc1]]; auto.
    right. replace (S (len d) - 1)%nat with (len d) by lia. nia.
Qed.

(** ** The general product *)
Lemma modsplit m y q : m < BB -> q <> 0 -> (m + BB * y) mod (BB * q) = m + BB * (y mod q).
Proof.
  intros Hm Hq. rewrite N.mod_mul_r by (auto; lia).
  rewrite (N.mul_comm BB y), N.mod_add, N.div_add by lia. rewrite (N.mod_small m BB), (N.div_small m BB) by auto. rewrite N.add_0_l. reflexivity.
Qed.

Definition rowpre (s acc : list N) : Prop :=
  match s, acc with
  | [], _ => limbs acc
  | _, [] => True
  | _, a :: acc' => a <= 8589934590 /\ limbs acc' /\ nth (length s) acc 0 = 0
  end.

Lemma mul_row_ok : forall s x acc, x < BB -> limbs s -> rowpre s acc ->
  length (mul_row x s acc) = length acc /\ limbs (mul_row x s acc) /\
  val (mul_row x s acc) = (val acc + x * val s) mod P (length acc).
Proof.
  induction s as [|y s IH]; intros x acc Hx Ls Hp.
  - cbn [mul_row]. destruct acc as [|a acc]; (split; [reflexivity|split; [exact Hp|]]).
    + rewrite val_nil. rewrite N.mul_0_r. reflexivity.
    + rewrite val_nil, N.mul_0_r, N.add_0_r. symmetry. apply N.mod_small. apply val_bound. exact Hp.
  - destruct acc as [|a acc]; cbn [mul_row].
    + repeat split; auto; [constructor|]. cbn [length]. rewrite P_0, N.mod_1_r. reflexivity.
    + inversion Ls as [|? ? Hy Ls']; subst. unfold limb in Hy. destruct Hp as (Ha & La & Hz).
      pose proof (limb_prod x y Hx Hy). rewrite w64_small by lia. change B32 with BB.
      set (t := x * y + a). assert (Ht : t < W) by lia.
      assert (Hh : t / BB < BB) by (apply N.div_lt_upper_bound; lia).
      pose proof (N.div_mod t BB ltac:(lia)) as DM. assert (Hm : t mod BB < BB) by (apply N.mod_lt; lia).
      assert (Hp' : rowpre s (add_head (t / BB) acc) /\ val (add_head (t / BB) acc) = match acc with [] => 0 | _ => t / BB + val acc end
              /\ length (add_head (t / BB) acc) = length acc).
      { destruct acc as [|b acc]; cbn [add_head].
        - split; [destruct s; cbn; auto; constructor|auto].
        - inversion La as [|? ? Hb La']; subst. unfold limb in Hb. rewrite w64_small by lia.
          repeat split; [|rewrite !val_cons; lia].
          destruct s as [|y' s]; cbn [rowpre length nth] in *.
          + constructor; auto. unfold limb. subst b. lia.
          + split; [lia|]. split; auto. }
      destruct Hp' as (Hp' & Va & Hla). destruct (IH x _ Hx Ls' Hp') as (I1 & I2 & I3).
      split; [cbn [length]; congruence|]. split; [constructor; auto|].
      rewrite val_cons, I3, Hla, Va. cbn [length]. rewrite P_S.
      rewrite !val_cons. rewrite <- modsplit by (auto using P_nz).
      destruct acc as [|b acc].
      * cbn [length]. rewrite P_0, val_nil. rewrite !N.mul_1_r.
        replace (t mod BB + BB * (0 + x * val s)) with (t mod BB + (x * val s) * BB) by lia.
        replace (a + BB * 0 + x * (y + BB * val s)) with (t + (x * val s) * BB) by (unfold t; lia).
        rewrite !N.mod_add by lia. apply N.mod_mod. lia.
      * f_equal. unfold t in *. lia.
Qed.

Lemma mul_row_tail : forall s x acc, skipn (S (length s)) (mul_row x s acc) = skipn (S (length s)) acc.
Proof.
  induction s as [|y s IH]; intros x acc; [destruct acc; reflexivity|].
  destruct acc as [|a acc]; [reflexivity|]. cbn [mul_row length].
  change (skipn (S (S (length s))) (?h :: ?t)) with (skipn (S (length s)) t).
  cbn [skipn] in *. rewrite (IH x). destruct acc; reflexivity.
Qed.

Lemma mul_rows_ok : forall d s acc, s <> [] -> limbs d -> limbs s -> limbs acc ->
  (forall i, (length s <= i)%nat -> nth i acc 0 = 0) ->
  length (mul_rows d s acc) = length acc /\ limbs (mul_rows d s acc) /\
  val (mul_rows d s acc) = (val acc + val d * val s) mod P (length acc).
Proof.
  induction d as [|x d IH]; intros s acc Hs Ld Ls La Hz; cbn [mul_rows].
  - repeat split; auto. rewrite val_nil, N.mul_0_l, N.add_0_r. symmetry. apply N.mod_small. apply val_bound; auto.
  - inversion Ld as [|? ? Hx Ld']; subst. unfold limb in Hx.
    assert (Hp : rowpre s acc).
    { destruct s as [|y s]; [congruence|]. destruct acc as [|a acc]; cbn [rowpre]; auto.
      inversion La as [|? ? Ha La']; subst. unfold limb in Ha. split; [lia|]. split; auto. }
    destruct (mul_row_ok s x acc Hx Ls Hp) as (R1 & R2 & R3). pose proof (mul_row_tail s x acc) as T.
    destruct (mul_row x s acc) as [|b r] eqn:Er.
    + destruct acc; [|discriminate]. repeat split; auto. cbn [length]. rewrite P_0, N.mod_1_r. reflexivity.
    + destruct acc as [|a acc]; [discriminate|]. cbn [length] in R1. injection R1 as R1.
      inversion R2 as [|? ? Hb R2']; subst. unfold limb in Hb.
      assert (Hz' : forall i, (length s <= i)%nat -> nth i r 0 = 0).
      { intros i Hi. change (nth i r 0) with (nth (S i) (b :: r) 0).
        replace (S i) with (S (length s) + (i - length s))%nat by lia. rewrite <- nth_skipn, T, nth_skipn. apply Hz. lia. }
      destruct (IH s r Hs Ld' Ls R2' Hz') as (I1 & I2 & I3).
      split; [cbn [length]; congruence|]. split; [constructor; auto|].
      rewrite val_cons, I3. cbn [length] in *. rewrite P_S in *. rewrite <- modsplit by auto using P_nz.
      rewrite R1 in *. rewrite val_cons in R3.
      assert (HQ : BB * P (length acc) <> 0) by (pose proof (P_nz (length acc)); lia).
      replace (b + BB * (val r + val d * val s)) with (b + BB * val r + BB * val d * val s) by lia.
      rewrite R3. rewrite (val_cons x d).
      rewrite N.add_mod_idemp_l by auto. f_equal. lia.
Qed.

Lemma mul_ok d s : wfp d -> wfp s -> fits (mag d * mag s) ->
  exists r, bn_mul d s = Some r /\ wfp r /\ mag r = mag d * mag s /\
    (neg r = xorb (neg d) (neg s) \/ mag r = 0).
Proof.
  intros Hd Hs F. unfold bn_mul. pose proof (wf_len _ Hd) as Ld. pose proof (wf_len _ Hs) as Ls.
  assert (One : forall b, wfp b -> len b = 1%nat -> exists w, nth_error (dat b) 0 = Some w /\ 1 <= w < BB /\ mag b = w).
  { intros b Hb L1. destruct (nth_error_lt (dat b) 0) as [w E]; [rewrite (wf_size _ Hb); unfold SIZE; lia|].
    exists w. split; auto. destruct (wf_top _ Hb) as [|T]; [lia|]. rewrite L1 in T. cbn [Nat.sub] in T.
    rewrite (nth_error_nth _ _ _ E) in T. pose proof (limbs_nth _ _ _ (wf_limbs _ Hb) E). split; [lia|].
    rewrite mag_firstn, L1 by auto. destruct (dat b) as [|h t]; [discriminate|]. cbn in E. injection E as ->.
    cbn [firstn]. rewrite val_cons, val_nil. lia. }
  destruct (Nat.eqb_spec (len s) 1) as [S1|S1].
  { destruct (One s Hs S1) as (w & E & Hw & Mw). rewrite E. cbn [obind].
    destruct (mul_word_ok d w Hd Hw) as (r & Er & Nr & Mr & Wr). rewrite Er. cbn [obind].
    exists (set_neg r (xorb (neg d) (neg s))). rewrite Mw in *. rewrite mag_set_neg.
    rewrite Mr. split; auto. split; [apply wfp_set_neg; auto|]. split; [apply N.mod_small; exact F|auto]. }
  destruct (Nat.eqb_spec (len d) 1) as [D1|D1].
  { destruct (One d Hd D1) as (w & E & Hw & Mw). rewrite E. cbn [obind].
    rewrite N.mul_comm in F |- *.
    destruct (mul_word_ok s w Hs Hw) as (r & Er & Nr & Mr & Wr). rewrite Er. cbn [obind].
    exists (set_neg r (xorb (neg d) (neg s))). rewrite Mw in *. rewrite mag_set_neg.
    rewrite Mr. split; auto. split; [apply wfp_set_neg; auto|]. split; [apply N.mod_small; exact F|auto]. }
  rewrite !abs_compare_ok by auto using wfp_zero. cbn [obind]. rewrite mag_zero. unfold zcmp.
  destruct (N.eq_dec (mag d) 0) as [Z|Z].
  { rewrite Z. cbn [Z.of_N Z.compare Z.eqb orb]. exists bn_zero. split; auto. split; [apply wfp_zero|].
    rewrite mag_zero. split; auto. }
  destruct (N.eq_dec (mag s) 0) as [Zs|Zs].
  { rewrite Zs. cbn [Z.of_N Z.compare Z.eqb orb]. rewrite orb_true_r. exists bn_zero. split; auto. split; [apply wfp_zero|].
    rewrite mag_zero. split; auto. lia. }
  assert (C1 : (Z.of_N (mag d) ?= Z.of_N 0)%Z = Gt) by (apply Z.compare_gt_iff; lia).
  assert (C2 : (Z.of_N (mag s) ?= Z.of_N 0)%Z = Gt) by (apply Z.compare_gt_iff; lia).
  rewrite C1, C2. cbn [Z.eqb orb].
  rewrite (proj2 (Nat.ltb_ge _ _)) by (rewrite (wf_size _ Hd); auto).
  rewrite (proj2 (Nat.ltb_ge _ _)) by (rewrite (wf_size _ Hs); auto). cbn [orb].
  assert (Ds : (1 < len d)%nat).
  { destruct (len d) as [|[|k]] eqn:E; try lia. rewrite (proj2 (mag_0 d Hd)) in Z by auto. lia. }
  assert (Ss : (1 < len s)%nat).
  { destruct (len s) as [|[|k]] eqn:E; try lia. rewrite (proj2 (mag_0 s Hs)) in Zs by auto. lia. }
  destruct (mul_rows_ok (firstn (len d) (dat d)) (firstn (len s) (dat s)) (zeros SIZE)) as (R1 & R2 & R3);
    try (apply limbs_firstn; apply wf_limbs; auto); try apply limbs_zeros.
  { intros E. apply (f_equal (@length N)) in E. rewrite firstn_length_le in E by (rewrite (wf_size _ Hs); auto). cbn in E. lia. }
  { intros. apply nth_zeros. }
  rewrite <- !mag_firstn, val_zeros, zeros_length, N.add_0_l, P_fits in R3 by auto. rewrite zeros_length in R1.
  rewrite (N.mod_small _ _ F) in R3.
  set (res := mul_rows _ _ _) in *.
  pose proof (mag_ge d Hd) as Gd. pose proof (mag_ge s Hs) as Gs. pose proof (mag_lt d Hd) as Bd. pose proof (mag_lt s Hs) as Bs.
  assert (Hge : P (len d - 1 + len s - 1) <= mag d * mag s).
  { replace (len d - 1 + len s - 1)%nat with ((len d - 1) + (len s - 1))%nat by lia. rewrite P_add. apply N.mul_le_mono; lia. }
  assert (Hlt : mag d * mag s < P (S (len d - 1 + len s))).
  { replace (S (len d - 1 + len s)) with (len d + len s)%nat by lia. rewrite P_add. apply N.mul_lt_mono; auto. }
  assert (Hn : (len d - 1 + len s <= SIZE)%nat).
  { unfold fits in F. rewrite <- P_fits in F. assert (P (len d - 1 + len s - 1) < P SIZE) by lia. apply P_le_inv in H. lia. }
  rewrite Nat.min_l by auto. set (n := (len d - 1 + len s)%nat) in *.
  destruct (Nat.ltb_spec n SIZE) as [L|L].
  - destruct (nth_error_lt res n) as [x Ex]; [lia|]. rewrite Ex. cbn [obind].
    eexists. split; [reflexivity|]. split; [|split; [exact R3|left; reflexivity]].
    destruct (N.eqb_spec x 0) as [->|Hx].
    + apply wfp_mk; auto; [|right; rewrite R3; auto]. rewrite R3.
      rewrite <- R3 in *. rewrite (val_split (S n)) in Hlt |- * by lia. apply lead0 in Hlt. rewrite Hlt.
      assert (Hn1 : (n <= length res)%nat) by lia.
      rewrite (val_firstn_S _ _ _ Hn1 Ex). pose proof (val_bound _ (limbs_firstn n _ R2)) as Bf. rewrite firstn_length_le in Bf by lia. lia.
    + apply wfp_mk; auto; [rewrite R3; auto|]. right. replace (S n - 1)%nat with n by lia.
      pose proof (nth_le_val _ _ _ Ex). pose proof (P_pos n). nia.
  - assert (En : n = SIZE) by lia. eexists. split; [reflexivity|]. split; [|split; [exact R3|left; reflexivity]].
    apply wfp_mk; auto; rewrite R3; [rewrite En, P_fits; exact F|right; auto].
Qed.

Lemma mul_value d s : wfp d -> wfp s -> fits (Z.abs_N (value d * value s)) ->
  exists r, bn_mul d s = Some r /\ wfp r /\ value r = (value d * value s)%Z.
Proof.
  intros Hd Hs F. assert (E : Z.abs_N (value d * value s) = mag d * mag s).
  { unfold value. destruct (neg d), (neg s); nia. }
  rewrite E in F. destruct (mul_ok d s Hd Hs F) as (r & Er & Wr & Mr & Nr). exists r. split; auto. split; auto.
  unfold value. destruct Nr as [->|Z].
  - destruct (neg d), (neg s); cbn [xorb]; nia.
  - rewrite Z in *. symmetry in Mr. apply N.eq_mul_0 in Mr. destruct Mr as [->| ->]; destruct (neg r), (neg d), (neg s); lia.
Qed.

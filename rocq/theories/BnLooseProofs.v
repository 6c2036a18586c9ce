(** Big numbers that may have leading zero limbs, as mln_bignum_os2ip makes them. *)
Require Import List Arith NArith ZArith Lia Bool.
Require Import ZifyBool ZifyNat ZifyN.
Require Import Verif.Base Verif.BnModel Verif.BnTextModel Verif.BnModModel Verif.BnSpec Verif.BnLimbProofs Verif.BnAddProofs Verif.BnMulProofs Verif.BnDivProofs
  Verif.BnShiftProofs Verif.BnProofs Verif.BnTextProofs Verif.BnModProofs.
Import ListNotations.
Open Scope N_scope.

Record wfl (b : bn) : Prop := {
  wl_size : length (dat b) = SIZE;
  wl_limbs : limbs (dat b);
  wl_len : (len b <= SIZE)%nat;
  wl_high : skipn (len b) (dat b) = zeros (SIZE - len b) }.

Lemma wfp_wfl b : wfp b -> wfl b.
Proof. intros [H1 H2 H3 H4 H5]. constructor; auto. Qed.
Lemma wfl_set_neg b t : wfl b -> wfl (set_neg b t).
Proof. intros [H1 H2 H3 H4]. constructor; auto. Qed.

Lemma lmag_firstn b : wfl b -> mag b = val (firstn (len b) (dat b)).
Proof.
  intros H. unfold mag. rewrite (val_split (len b)) by (rewrite (wl_size _ H); apply (wl_len _ H)).
  rewrite (wl_high _ H), val_zeros. lia.
Qed.
Lemma lmag_firstn_ge b n : wfl b -> (len b <= n)%nat -> (n <= SIZE)%nat -> mag b = val (firstn n (dat b)).
Proof.
  intros H Hn Hs. unfold mag. rewrite (val_split n) by (rewrite (wl_size _ H); auto).
  replace (skipn n (dat b)) with (skipn (n - len b) (skipn (len b) (dat b))).
  2:{ rewrite skipn_plus. f_equal. lia. }
  rewrite (wl_high _ H).
  assert (E : val (skipn (n - len b) (zeros (SIZE - len b))) = 0).
  { assert (V : val (zeros (SIZE - len b)) = 0) by apply val_zeros.
    rewrite (val_split (n - len b)) in V by (rewrite zeros_length; lia).
    pose proof (P_pos (n - len b)). apply N.eq_add_0 in V. destruct V as [_ V]. apply N.eq_mul_0 in V. lia. }
  rewrite E. lia.
Qed.
Lemma lmag_lt b : wfl b -> mag b < P (len b).
Proof.
  intros H. rewrite lmag_firstn by auto.
  pose proof (val_bound _ (limbs_firstn (len b) _ (wl_limbs _ H))) as V.
  rewrite firstn_length_le in V by (rewrite (wl_size _ H); apply (wl_len _ H)). exact V.
Qed.
Lemma wfl_mk t n d : length d = SIZE -> limbs d -> (n <= SIZE)%nat -> val d < P n -> wfl (mkBn t n d).
Proof.
  intros Hs Hl Hn Hv. constructor; cbn [dat len]; auto.
  rewrite (val_split n) in Hv by lia. pose proof (P_pos n).
  apply lead0 in Hv. apply val_zero_iff in Hv. rewrite skipn_length, Hs in Hv. exact Hv.
Qed.

(** A well-formed number of a given length. *)
Definition full (n : nat) : bn := mkBn false n (repeat 1 n ++ zeros (SIZE - n)).
Lemma full_wfp n : (n <= SIZE)%nat -> wfp (full n).
Proof.
  intros H. constructor; cbn [full dat len].
  - rewrite app_length, repeat_length, zeros_length. lia.
  - apply limbs_app. split; [|apply limbs_zeros]. apply Forall_forall. intros x Hx. apply repeat_spec in Hx. subst x. reflexivity.
  - exact H.
  - apply skipn_app_ge, repeat_length.
  - destruct n as [|n]; [now left|right]. replace (S n - 1)%nat with n by lia. rewrite app_nth1 by (rewrite repeat_length; lia).
    rewrite (nth_indep _ 0 1) by (rewrite repeat_length; lia). rewrite nth_repeat. discriminate.
Qed.

Ltac lside := repeat match goal with H : wfl ?b |- _ => rewrite (wl_size b H) end; auto using wl_limbs, wl_len; try lia.

Lemma lmul_word d w : wfl d -> w < BB -> (S (len d) <= SIZE)%nat ->
  exists r, bn_mul_word d w = Some r /\ neg r = neg d /\ mag r = mag d * w /\ wfl r /\ (len d <= len r <= S (len d))%nat.
Proof.
  intros Hd Hw LS. pose proof (wl_len _ Hd) as Ld.
  unfold bn_mul_word. change B32 with BB. rewrite (N.mod_small w) by lia.
  destruct (mulw_limbs_ok (len d) (dat d) w 0) as (l & c & E & Hl & Ll & Hc & V); lside.
  rewrite E. cbn [obind]. rewrite <- lmag_firstn in V by auto.
  assert (Hov : overlay l (dat d) = l ++ zeros (SIZE - len d)) by (unfold overlay; rewrite Hl, (wl_high _ Hd); reflexivity).
  rewrite Hov. destruct (mulw_carry_ok (full (len d)) l c (full_wfp _ Ld) Hl Ll Hc) as (data & n & E2 & Sd & Lda & Hn & Vd & Hcase).
  cbn [full len] in E2, Hcase, Vd. rewrite E2. cbn [obind fst snd]. eexists. split; [reflexivity|]. cbn [neg len]. split; auto.
  pose proof (val_bound _ Ll) as Bl. rewrite Hl in Bl. pose proof (P_pos (len d)) as PP.
  assert (VV : val data = mag d * w).
  { rewrite Vd, V, N.add_0_r. apply N.mod_small. apply N.lt_le_trans with (P (S (len d))); [|apply P_mono; exact LS].
    rewrite P_S. pose proof (lmag_lt d Hd). nia. }
  unfold mag at 1. cbn [dat]. split; [exact VV|]. split.
  - apply wfl_mk; auto. rewrite VV. rewrite N.add_0_r in V. destruct Hcase as [[-> [->|Hs]]|[-> Hc1]]; [lia|lia|].
    rewrite P_S. pose proof (lmag_lt d Hd). nia.
  - destruct Hcase as [[-> _]|[-> _]]; lia.
Qed.

Lemma lmul d s : wfl d -> wfl s -> (len d + len s < SIZE)%nat ->
  exists r, bn_mul d s = Some r /\ wfl r /\ mag r = mag d * mag s /\ (neg d = false -> neg s = false -> neg r = false) /\
    (len r <= len d + len s)%nat /\ (0 < len d -> 0 < len s -> len d + len s <= S (len r))%nat.
Proof.
  intros Hd Hs F. unfold bn_mul. pose proof (wl_len _ Hd) as Ld. pose proof (wl_len _ Hs) as Ls.
  assert (One : forall b, wfl b -> len b = 1%nat -> exists w, nth_error (dat b) 0 = Some w /\ w < BB /\ mag b = w).
  { intros b Hb L1. destruct (nth_error_lt (dat b) 0) as [w E]; [rewrite (wl_size _ Hb); unfold SIZE; lia|].
    exists w. split; auto. pose proof (limbs_nth _ _ _ (wl_limbs _ Hb) E). split; [lia|].
    rewrite lmag_firstn, L1 by auto. destruct (dat b) as [|h t]; [discriminate|]. cbn in E. injection E as ->.
    cbn [firstn]. rewrite val_cons, val_nil. lia. }
  destruct (Nat.eqb_spec (len s) 1) as [S1|S1].
  { destruct (One s Hs S1) as (w & E & Hw & Mw). rewrite E. cbn [obind].
    destruct (lmul_word d w Hd Hw) as (r & Er & Nr & Mr & Wr & L1 & L2); [lia|]. rewrite Er. cbn [obind].
    exists (set_neg r (xorb (neg d) (neg s))). rewrite Mw in *. rewrite mag_set_neg.
    split; [reflexivity|]. split; [now apply wfl_set_neg|]. split; [exact Mr|]. cbn [set_neg neg len].
    split; [intros -> ->; reflexivity|]. lia. }
  destruct (Nat.eqb_spec (len d) 1) as [D1|D1].
  { destruct (One d Hd D1) as (w & E & Hw & Mw). rewrite E. cbn [obind].
    destruct (lmul_word s w Hs Hw) as (r & Er & Nr & Mr & Wr & L1 & L2); [lia|]. rewrite Er. cbn [obind].
    exists (set_neg r (xorb (neg d) (neg s))). rewrite Mw in *. rewrite mag_set_neg.
    split; [reflexivity|]. split; [now apply wfl_set_neg|]. split; [lia|]. cbn [set_neg neg len].
    split; [intros -> ->; reflexivity|]. lia. }
  assert (CZ : forall b, wfl b -> bn_abs_compare b bn_zero = Some (if (len b =? 0)%nat then 0%Z else 1%Z)).
  { intros b Hb. unfold bn_abs_compare. change (len bn_zero) with 0%nat. destruct (Nat.eqb_spec (len b) 0) as [Z|Z]; cbn [negb]; [reflexivity|].
    destruct (Nat.ltb_spec 0 (len b)); [reflexivity|lia]. }
  assert (Z0 : forall b, wfl b -> len b = 0%nat -> mag b = 0).
  { intros b Hb E. pose proof (lmag_lt b Hb) as G. rewrite E, P_0 in G. lia. }
  rewrite !CZ by auto. cbn [obind].
  destruct (Nat.eqb_spec (len d) 0) as [DZ|DZ].
  { cbn [Z.eqb orb]. exists bn_zero. split; [reflexivity|]. split; [apply wfp_wfl, wfp_zero|]. rewrite mag_zero, (Z0 d) by auto. cbn [bn_zero neg len]. split; [lia|]. split; [auto|lia]. }
  destruct (Nat.eqb_spec (len s) 0) as [SZ|SZ].
  { cbn [Z.eqb orb]. exists bn_zero. split; [reflexivity|]. split; [apply wfp_wfl, wfp_zero|]. rewrite mag_zero, (Z0 s) by auto. cbn [bn_zero neg len]. split; [lia|]. split; [auto|lia]. }
  cbn [Z.eqb orb].
  rewrite (proj2 (Nat.ltb_ge _ _)) by (rewrite (wl_size _ Hd); auto).
  rewrite (proj2 (Nat.ltb_ge _ _)) by (rewrite (wl_size _ Hs); auto). cbn [orb].
  destruct (mul_rows_ok (firstn (len d) (dat d)) (firstn (len s) (dat s)) (zeros SIZE)) as (R1 & R2 & R3);
    try (apply limbs_firstn; apply wl_limbs; auto); try apply limbs_zeros.
  { intros E. apply (f_equal (@length N)) in E. rewrite firstn_length_le in E by (rewrite (wl_size _ Hs); auto). cbn in E. lia. }
  { intros. apply nth_zeros. }
  rewrite <- !lmag_firstn, val_zeros, zeros_length, N.add_0_l in R3 by auto. rewrite zeros_length in R1.
  pose proof (lmag_lt d Hd) as Bd. pose proof (lmag_lt s Hs) as Bs.
  assert (Hlt : mag d * mag s < P (S (len d - 1 + len s))).
  { replace (S (len d - 1 + len s)) with (len d + len s)%nat by lia. rewrite P_add. apply N.mul_lt_mono; auto. }
  rewrite N.mod_small in R3 by (eapply N.lt_le_trans; [exact Hlt|]; apply P_mono; lia).
  set (res := mul_rows _ _ _) in *.
  rewrite Nat.min_l by lia. set (n := (len d - 1 + len s)%nat) in *.
  rewrite (proj2 (Nat.ltb_lt n SIZE)) by lia.
  destruct (nth_error_lt res n) as [x Ex]; [lia|]. rewrite Ex. cbn [obind].
  eexists. split; [reflexivity|]. cbn [neg len]. split; [|split; [exact R3|]].
  - destruct (N.eqb_spec x 0) as [->|Hx].
    + apply wfl_mk; auto; [lia|].
      assert (SP : val res < P (S n)) by (rewrite R3; exact Hlt). rewrite (val_split (S n)) in SP |- * by lia. apply lead0 in SP. rewrite SP.
      assert (Hn1 : (n <= length res)%nat) by lia.
      rewrite (val_firstn_S _ _ _ Hn1 Ex). pose proof (val_bound _ (limbs_firstn n _ R2)) as Bf. rewrite firstn_length_le in Bf by lia. lia.
    + apply wfl_mk; auto; [lia|]. now rewrite R3.
  - split; [intros -> ->; reflexivity|]. destruct (x =? 0); lia.
Qed.

(** ** Division: the remainder *)
Lemma ldiv_word d w : wfl d -> 1 <= w < BB ->
  exists r q, bn_div_word d w = Some (Some (r, q)) /\ wfp r /\ mag r = mag d mod w /\ (neg d = false -> neg r = false) /\ (len r <= 1)%nat.
Proof.
  intros Hd Hw. pose proof (wl_len _ Hd) as Ld. unfold bn_div_word.
  destruct (N.eqb_spec w 0) as [|_]; [lia|]. change B32 with BB. rewrite N.mod_small by lia.
  destruct (N.eqb_spec w 1) as [->|W1].
  { exists bn_zero, d. rewrite mag_zero, N.mod_1_r. split; auto. split; [apply wfp_zero|]. cbn [bn_zero neg len]. auto. }
  destruct (Nat.eqb_spec (len d) 0) as [Z|Z].
  { exists d, bn_zero. pose proof (lmag_lt d Hd) as Md. rewrite Z, P_0 in Md. assert (M0 : mag d = 0) by lia. rewrite M0, N.mod_0_l by lia.
    split; auto. split; [|split; [auto|split; [auto|lia]]].
    destruct d as [t n l]. cbn [len] in *. subst n. apply wfp_mk; [apply (wl_size _ Hd)|apply (wl_limbs _ Hd)|lia| |now left].
    unfold mag in M0. cbn [dat] in M0. rewrite M0, P_0. lia. }
  destruct (nth_error_lt (dat d) (len d - 1)) as [x E]; [rewrite (wl_size _ Hd); lia|].
  pose proof (limbs_nth _ _ _ (wl_limbs _ Hd) E) as Hx.
  rewrite E. cbn [obind].
  assert (Hrem : forall t, store (overlay (zeros (len d)) (dat d)) 0 t = Some (t :: zeros (SIZE - 1))).
  { intros t. unfold overlay. rewrite zeros_length, (wl_high _ Hd). unfold zeros. rewrite <- repeat_app.
    replace (len d + (SIZE - len d))%nat with SIZE by lia. reflexivity. }
  assert (Hn1 : (len d - 1 <= length (dat d))%nat) by (rewrite (wl_size _ Hd); lia).
  assert (Mx : mag d = val (firstn (len d - 1) (dat d)) + P (len d - 1) * x).
  { rewrite lmag_firstn by auto. replace (len d) with (S (len d - 1)) at 1 by lia. apply val_firstn_S; auto. }
  destruct (N.ltb_spec x w) as [L|L].
  - destruct (divw_limbs_ok (len d - 1) (dat d) w x) as (q & r & E2 & Hq & Lq & Hr & V); lside.
    rewrite E2. cbn [obind]. rewrite Hrem. cbn [obind]. eexists _, _. split; [reflexivity|].
    rewrite mag_small. split; [apply wfp_small; lia|]. split; [|cbn [neg len]; split; [auto|destruct (r =? 0); lia]].
    apply (N.mod_unique _ _ (val q)); [exact Hr|]. lia.
  - destruct (divw_limbs_ok (len d) (dat d) w 0) as (q & r & E2 & Hq & Lq & Hr & V); lside.
    rewrite E2. cbn [obind]. rewrite Hrem. cbn [obind]. eexists _, _. split; [reflexivity|].
    rewrite mag_small. split; [apply wfp_small; lia|]. split; [|cbn [neg len]; split; [auto|destruct (r =? 0); lia]].
    rewrite <- lmag_firstn in V by auto. apply (N.mod_unique _ _ (val q)); [exact Hr|]. lia.
Qed.

Lemma labs_compare a b : wfl a -> wfp b -> (len a < len b)%nat \/ bn_abs_compare a b = Some 1%Z \/
  len a = len b /\ bn_abs_compare a b = Some (zcmp (Z.of_N (mag a)) (Z.of_N (mag b))).
Proof.
  intros Ha Hb. unfold bn_abs_compare, zcmp.
  destruct (Nat.eqb_spec (len a) (len b)) as [E|E]; cbn [negb].
  - right. right. split; [exact E|]. destruct (Nat.eqb_spec (len a) 0) as [Z|Z].
    + pose proof (lmag_lt a Ha) as G. rewrite Z, P_0 in G. rewrite (proj2 (mag_0 b Hb)) by lia. replace (mag a) with 0 by lia. reflexivity.
    + pose proof (wl_len a Ha) as LA. pose proof (wf_len b Hb) as LB.
      destruct (cmp_down_ok (len a) (dat a) (dat b)) as (z & E1 & ->); [rewrite (wl_size _ Ha); lia|rewrite (wf_size _ Hb); lia|apply (wl_limbs _ Ha)|apply (wf_limbs _ Hb)|].
      rewrite E1. rewrite <- lmag_firstn by auto. rewrite E, <- mag_firstn by auto. rewrite N2Z.inj_compare. reflexivity.
  - destruct (Nat.ltb_spec (len b) (len a)) as [L|L]; [right; left; reflexivity|left; lia].
Qed.

Lemma ldiv d s : wfl d -> wfp s -> mag s <> 0 -> (len d < SIZE)%nat -> neg d = false -> neg s = false ->
  exists r q, bn_div d s = Some (Some (r, q)) /\ wfl r /\ mag r = mag d mod mag s /\ neg r = false /\ (len r <= len s)%nat /\
    ((len s < len d)%nat \/ wfp d -> wfp r).
Proof.
  intros Hd Hs Ns Hc Nd Ng. unfold bn_div. pose proof (wl_len _ Hd) as Ld. pose proof (wf_len _ Hs) as Ls. rewrite Nd, Ng. cbn [xorb].
  destruct (Nat.eqb_spec (len s) 0) as [S0|S0]; [apply (mag_0 s Hs) in S0; lia|].
  destruct (Nat.eqb_spec (len s) 1) as [S1|S1].
  { destruct (one_limb s Hs S1) as (w & E & Hw & Mw). rewrite E. cbn [obind].
    destruct (ldiv_word d w Hd Hw) as (r & q & Er & Wr & EV & Hr & Hl). rewrite Er. cbn [obind].
    eexists _, _. split; [reflexivity|]. rewrite mag_set_neg, Mw. split; [apply wfl_set_neg, wfp_wfl; exact Wr|]. split; [exact EV|].
    cbn [set_neg neg len]. split; [reflexivity|]. split; [lia|]. intros _. now apply wfp_set_neg. }
  assert (Small : (len d < len s)%nat \/ len d = len s /\ mag d < mag s -> mag d < mag s).
  { intros [L|[_ L]]; [|exact L]. pose proof (lmag_lt d Hd) as A. pose proof (mag_ge s Hs ltac:(lia)) as B. pose proof (P_mono (len d) (len s - 1) ltac:(lia)). lia. }
  assert (Keep : mag d < mag s -> (len d <= len s)%nat -> exists r q, Some (Some (set_neg d false, bn_zero)) = Some (Some (r, q)) /\ wfl r /\ mag r = mag d mod mag s /\ neg r = false /\ (len r <= len s)%nat /\
    ((len s < len d)%nat \/ wfp d -> wfp r)).
  { intros M L. eexists _, _. split; [reflexivity|]. split; [now apply wfl_set_neg|]. rewrite mag_set_neg. split; [symmetry; now apply N.mod_small|]. cbn [set_neg neg len].
    split; [reflexivity|]. split; [exact L|]. intros [Q|Q]; [lia|now apply wfp_set_neg]. }
  assert (Long : (len s <= len d)%nat -> exists r q,
    (let dlen := len d in let slen := len s in
      sv <- nth_error (dat s) (slen - 1) ;;
      let dd := B32 / (sv + 1) in
      pd <- nmul (dat d) dd (dlen + 1) dlen ;;
      ps <- nmul (dat s) dd slen slen ;;
      r <- d2_loop (dlen - slen + 1) slen (ps ++ [0]) pd ;;
      let '(pd, q) := r in
      qt <- nth_error q (dlen - slen) ;;
      r <- ndiv pd dd slen ;;
      Some (Some (mkBn false (snd r) (overlay (fst r) (zeros SIZE)),
                  mkBn false (if qt =? 0 then (dlen - slen)%nat else (dlen - slen + 1)%nat) (overlay q (zeros SIZE))))) = Some (Some (r, q)) /\
    wfl r /\ mag r = mag d mod mag s /\ neg r = false /\ (len r <= len s)%nat /\ ((len s < len d)%nat \/ wfp d -> wfp r)).
  { intros Hls. cbn zeta.
    set (slen := len s) in *. set (dlen := len d) in *. assert (H2 : (2 <= slen)%nat) by lia.
    destruct (nth_error_lt (dat s) (slen - 1)) as [sv Esv]; [rewrite (wf_size _ Hs); lia|].
    pose proof (limbs_nth _ _ _ (wf_limbs _ Hs) Esv) as Bsv.
    destruct (wf_top _ Hs) as [|T]; [lia|]. fold slen in T. rewrite (nth_error_nth _ _ _ Esv) in T.
    rewrite Esv. cbn [obind]. change B32 with BB.
    set (dd := BB / (sv + 1)).
    pose proof (norm_factor sv ltac:(lia)) as NF. fold dd in NF.
    pose proof (N.div_mod BB (sv + 1) ltac:(lia)) as DM. fold dd in DM.
    pose proof (N.mod_lt BB (sv + 1) ltac:(lia)) as ML.
    assert (Hdd1 : 1 <= dd) by (destruct (N.eq_dec dd 0) as [Z|]; [rewrite Z in NF|]; lia).
    assert (Hdd2 : dd < BB) by nia.
    assert (Hss : mag s = val (firstn (slen - 1) (dat s)) + P (slen - 1) * sv).
    { rewrite mag_firstn by auto. fold slen. replace slen with (S (slen - 1)) at 1 by lia.
      apply val_firstn_S; auto. rewrite (wf_size _ Hs). lia. }
    pose proof (val_bound _ (limbs_firstn (slen - 1) _ (wf_limbs _ Hs))) as Blow.
    rewrite firstn_length_le in Blow by (rewrite (wf_size _ Hs); lia).
    assert (PP : P slen = BB * P (slen - 1)) by (rewrite <- P_S; f_equal; lia).
    pose proof (P_pos (slen - 1)) as Pp.
    assert (Hsd : mag s * dd < P slen).
    { rewrite PP. assert (mag s < (sv + 1) * P (slen - 1)) by lia.
      assert (mag s * dd < (sv + 1) * P (slen - 1) * dd) by (apply N.mul_lt_mono_pos_r; lia).
      assert ((sv + 1) * dd * P (slen - 1) <= BB * P (slen - 1)) by (apply N.mul_le_mono_r; lia). lia. }
    assert (Hmd : mag d * dd < P (dlen + 1)).
    { rewrite Nat.add_1_r, P_S. pose proof (lmag_lt d Hd) as G. fold dlen in G.
      assert (mag d * dd < P dlen * dd) by (apply N.mul_lt_mono_pos_r; lia).
      assert (P dlen * dd <= P dlen * BB) by (apply N.mul_le_mono_l; lia). lia. }
    clear DM ML. clearbody dd.
    destruct (nmul_ok (dat d) dd (dlen + 1) dlen) as (pd & Ed & Sd & Lpd & Vd); auto; lside.
    { intros E1. split; [lia|]. rewrite <- (lmag_firstn_ge d) by (auto; unfold dlen; lia). apply lmag_firstn. auto. }
    { unfold dlen. rewrite <- lmag_firstn by auto. exact Hmd. }
    unfold dlen in Vd. rewrite <- lmag_firstn in Vd by auto. fold dlen in Vd.
    destruct (nmul_ok (dat s) dd slen slen) as (ps & Es & Ss & Lps & Vs); auto; side.
    { unfold slen. rewrite <- mag_firstn by auto. exact Hsd. }
    unfold slen in Vs. rewrite <- mag_firstn in Vs by auto. fold slen in Vs.
    rewrite Ed, Es. cbn [obind].
    destruct (nth_error_lt ps (slen - 1)) as [v1 Ev1]; [lia|].
    assert (Hv1 : 2147483648 <= v1).
    { assert (Vps : val ps = val (firstn (slen - 1) ps) + P (slen - 1) * v1).
      { rewrite <- (val_firstn_S ps (slen - 1)) by (auto; lia). rewrite firstn_all2 by lia. reflexivity. }
      pose proof (val_bound _ (limbs_firstn (slen - 1) _ Lps)) as B1. rewrite firstn_length_le in B1 by lia.
      assert (HPs : P (slen - 1) * sv * dd <= mag s * dd) by (apply N.mul_le_mono_r; lia).
      assert (mag s * dd >= P (slen - 1) * (dd * sv)) by lia.
      assert (P (slen - 1) * (v1 + 1) > P (slen - 1) * (dd * sv)) by lia.
      assert (dd * sv < v1 + 1); [|lia]. apply (N.mul_lt_mono_pos_l (P (slen - 1))); lia. }
    destruct (d2_loop_ok slen ps v1 H2 Ss Lps Ev1 Hv1 (dlen - slen + 1) pd) as (pd' & q & E2 & S2 & L2 & Sq & Lq & EV & Hr); auto.
    { lia. }
    { assert (Hk : (dlen - slen + 1 <= length pd)%nat) by lia.
      rewrite Vs. apply (N.mul_lt_mono_pos_l (P (dlen - slen + 1))); [pose proof (P_pos (dlen - slen + 1)); lia|].
      assert (P (dlen - slen + 1) * val (skipn (dlen - slen + 1) pd) <= val pd) by (rewrite (val_split _ pd Hk); lia).
      assert (P (dlen - slen + 1) * (mag s * dd) >= P dlen * dd).
      { assert (PD : P dlen = P (dlen - slen + 1) * P (slen - 1)) by (rewrite <- P_add; f_equal; lia). rewrite PD.
        pose proof (mag_ge s Hs ltac:(fold slen; lia)) as G. fold slen in G.
        assert (P (slen - 1) * dd <= mag s * dd) by (apply N.mul_le_mono_r; auto).
        assert (P (dlen - slen + 1) * (P (slen - 1) * dd) <= P (dlen - slen + 1) * (mag s * dd)) by (apply N.mul_le_mono_l; auto). lia. }
      pose proof (lmag_lt d Hd) as G. fold dlen in G.
      assert (mag d * dd < P dlen * dd) by (apply N.mul_lt_mono_pos_r; lia). lia. }
    rewrite E2. cbn [obind].
    destruct (nth_error_lt q (dlen - slen)) as [qt Eqt]; [lia|]. rewrite Eqt. cbn [obind].
    rewrite Vs, Vd in EV. rewrite Vs in Hr.
    assert (Hrem : exists rm, val pd' = rm * dd /\ mag d = val q * mag s + rm /\ rm < mag s).
    { exists (mag d - val q * mag s).
      assert (val q * mag s * dd <= mag d * dd) by lia.
      assert (val q * mag s <= mag d) by (apply (N.mul_le_mono_pos_r _ _ dd); lia).
      assert (X : val pd' = (mag d - val q * mag s) * dd) by (rewrite N.mul_sub_distr_r; lia).
      split; auto. split; [lia|]. apply (N.mul_lt_mono_pos_r dd); lia. }
    destruct Hrem as (rm & Er & Ed0 & Hrm).
    assert (Hnd : exists rl k, ndiv pd' dd slen = Some (rl, k) /\ length rl = slen /\ limbs rl /\ val rl = rm /\ top slen rl = Some k).
    { unfold ndiv. change B32 with BB. rewrite (N.mod_small dd) by auto. destruct (N.eqb_spec dd 0) as [|_]; [lia|].
      assert (Vf : val (firstn slen pd') = val pd') by (apply val_firstn_small; auto; lia).
      destruct (N.eqb_spec dd 1) as [D1|D1].
      - rewrite (proj2 (Nat.leb_le slen (length pd'))) by lia. cbn [obind].
        assert (Sf : length (firstn slen pd') = slen) by (apply firstn_length_le; lia).
        destruct (top_ok slen (firstn slen pd')) as (k & Ek & _); [lia|]. rewrite Ek. cbn [obind].
        exists (firstn slen pd'), k. split; [reflexivity|]. split; [exact Sf|]. split; [apply limbs_firstn; auto|]. split; [|exact Ek].
        rewrite Vf, Er, D1. apply N.mul_1_r.
      - destruct (divw_limbs_ok slen pd' dd 0) as (rl & r & E3 & S3 & L3 & Hr3 & V3); auto; try lia.
        rewrite E3. cbn [obind fst].
        destruct (top_ok slen rl) as (k & Ek & _); [lia|]. rewrite Ek. cbn [obind].
        exists rl, k. split; [reflexivity|]. split; [exact S3|]. split; [exact L3|]. split; [|exact Ek].
        rewrite Vf, Er, N.mul_0_l, N.add_0_l in V3. exact (exact_div _ _ _ _ V3 Hr3). }
    destruct Hnd as (rl & k & E3 & S3 & L3 & V3 & T3). rewrite E3. cbn [obind fst snd].
    eexists _, _. split; [reflexivity|].
    assert (Mr : forall t n, mag (mkBn t n (overlay rl (zeros SIZE))) = rm) by (intros; unfold mag; cbn [dat]; rewrite overlay_zeros_val; auto).
    assert (WF : wfp (mkBn false k (overlay rl (zeros SIZE)))).
    { pose proof (val_bound _ L3) as B3. rewrite S3 in B3.
      apply (wfp_top _ slen).
      - apply overlay_zeros_length. lia.
      - apply limbs_overlay; auto using limbs_zeros.
      - lia.
      - rewrite overlay_zeros_val. auto.
      - unfold overlay. rewrite <- T3. clear - S3. revert S3. set (rest := skipn _ _). clearbody rest. intros <-.
        assert (G : forall n, (n <= length rl)%nat -> top n (rl ++ rest) = top n rl); [|apply G; lia].
        induction n as [|n IH]; intros H; cbn [top]; auto. rewrite nth_error_app1 by lia.
        destruct (nth_error rl n); cbn [obind]; auto. destruct (n0 =? 0); auto. apply IH. lia. }
    split; [now apply wfp_wfl|]. rewrite Mr. split; [apply (N.mod_unique _ _ (val q)); lia|]. cbn [neg len]. split; [reflexivity|].
    split; [|auto]. destruct (top_ok slen rl) as (k' & Ek & Hk & _); [lia|]. rewrite T3 in Ek. injection Ek as <-. exact Hk. }
  destruct (labs_compare d s Hd Hs) as [L|[L|[L1 L2]]].
  - unfold bn_abs_compare. rewrite (proj2 (Nat.eqb_neq (len d) (len s))) by lia. cbn [negb]. rewrite (proj2 (Nat.ltb_ge (len s) (len d))) by lia.
    cbn [obind Z.eqb Z.ltb Z.compare]. apply Keep; [|lia]. apply Small. now left.
  - rewrite L. cbn [obind Z.eqb Z.ltb Z.compare]. apply Long.
    unfold bn_abs_compare in L. destruct (Nat.eqb_spec (len d) (len s)) as [E|E]; [lia|]. cbn [negb] in L. destruct (Nat.ltb_spec (len s) (len d)); [lia|discriminate].
  - rewrite L2. cbn [obind]. unfold zcmp. destruct (Z.compare_spec (Z.of_N (mag d)) (Z.of_N (mag s))) as [C|C|C]; cbn [Z.eqb Z.ltb Z.compare].
    + eexists _, _. split; [reflexivity|]. split; [apply wfp_wfl, wfp_zero|]. rewrite mag_zero. split; [|cbn [bn_zero neg len]; split; [reflexivity|split; [lia|intros _; apply wfp_zero]]].
      replace (mag d) with (mag s) by lia. symmetry. apply N.mod_same. exact Ns.
    + apply Keep; lia.
    + apply Long. lia.
Qed.

(** ** Powers modulo a number *)
Lemma lreduce d m : wfl d -> wfp m -> mag m <> 0 -> (len d < SIZE)%nat -> neg d = false -> neg m = false ->
  exists r, reduce d m = Some (Some r) /\ wfl r /\ mag r = mag d mod mag m /\ neg r = false /\ (len r <= len m)%nat /\
    ((len m < len d)%nat \/ wfp d -> wfp r).
Proof.
  intros Hd Hm M0 L Nd Nm. unfold reduce. destruct (Nat.leb_spec (len m) (len d)) as [G|G].
  - destruct (ldiv d m Hd Hm M0 L Nd Nm) as (r & q & E & R). rewrite E. exists r. split; [reflexivity|exact R].
  - exists d. split; [reflexivity|]. split; [exact Hd|]. split.
    + symmetry. apply N.mod_small. pose proof (lmag_lt d Hd) as A.
      pose proof (mag_ge m Hm ltac:(lia)) as B. pose proof (P_mono (len d) (len m - 1) ltac:(lia)). lia.
    + split; [exact Nd|]. split; [lia|]. intros [Q|Q]; [lia|exact Q].
Qed.

Lemma mul_wfp d s r : wfp d -> wfp s -> (len d + len s < SIZE)%nat -> bn_mul d s = Some r -> wfp r.
Proof.
  intros Hd Hs L E. destruct (mul_ok d s Hd Hs) as (r' & E' & W & _).
  - unfold fits. rewrite <- P_fits. apply N.lt_le_trans with (P (len d + len s)); [|apply P_mono; lia].
    rewrite P_add. apply N.mul_lt_mono; apply mag_lt; auto.
  - rewrite E in E'. injection E' as <-. exact W.
Qed.

Lemma mod_mul2 a b c d m : m <> 0 -> a mod m = c mod m -> b mod m = d mod m -> (a * b) mod m = (c * d) mod m.
Proof. intros M A B. rewrite (N.mul_mod a b), (N.mul_mod c d), A, B by exact M. reflexivity. Qed.

Section Power.
  Variables x e m : bn.
  Hypothesis Hx : wfl x.
  Hypothesis Nx : neg x = false.
  Hypothesis He : wfp e.
  Hypothesis Hm : wfp m.
  Hypothesis Nm : neg m = false.
  Hypothesis M0 : mag m <> 0.
  Hypothesis S1 : (len x + len x < SIZE)%nat.
  Hypothesis S2 : (len m + len x < SIZE)%nat.
  Hypothesis S3 : (len m + len m < SIZE)%nat.
  Let tight : Prop := wfp x \/ (len m < len x)%nat.

  Lemma lpwr_loop : forall k dest, N.of_nat k <= 8224 -> wfl dest -> neg dest = false ->
    dest = x \/ mag dest < mag m /\ (len dest <= len m)%nat ->
    mag dest mod mag m = mag x ^ (mag e / 2 ^ N.of_nat k) mod mag m ->
    exists r, pwr_mod_loop k x e m dest = Some (Some r) /\ wfl r /\ neg r = false /\ mag r mod mag m = mag x ^ mag e mod mag m /\
      ((k = 0%nat /\ r = dest) \/ mag r < mag m /\ (len r <= len m)%nat) /\
      (k <> 0%nat -> tight -> dest = x \/ wfp dest -> wfp r).
  Proof using Hx Nx He Hm Nm M0 S1 S2 S3.
    induction k as [|k IH]; intros dest Hk Hd Nd D V; cbn [pwr_mod_loop].
    - exists dest. split; [reflexivity|]. split; [exact Hd|]. split; [exact Nd|]. split; [|split; [left; auto|congruence]].
      rewrite V. change (2 ^ N.of_nat 0) with 1. rewrite N.div_1_r. reflexivity.
    - assert (SD : (len dest + len dest < SIZE)%nat) by (destruct D as [->|[_ D]]; [exact S1|clear - D S3; lia]).
      destruct (lmul dest dest Hd Hd SD) as (d1 & E1 & W1 & V1 & N1 & L1 & G1). rewrite E1. cbn [obind].
      destruct (lreduce d1 m W1 Hm M0 ltac:(clear - L1 SD; lia) (N1 Nd Nd) Nm) as (d2 & E2 & W2 & V2 & N2 & L2 & T2). rewrite E2. cbn [obind].
      assert (B2 : mag d2 < mag m) by (rewrite V2; apply N.mod_lt; exact M0).
      assert (Q2 : tight -> dest = x \/ wfp dest -> wfp d2).
      { intros T [->|Q].
        - destruct T as [T|T]; apply T2.
          + right. exact (mul_wfp _ _ _ T T S1 E1).
          + left. clear - G1 T. specialize (G1 ltac:(lia) ltac:(lia)). lia.
        - apply T2. right. exact (mul_wfp _ _ _ Q Q SD E1). }
      rewrite bit_test_core_ok by (try exact He; clear - Hk; lia). cbn [obind].
      assert (P2 : mag d2 mod mag m = mag x ^ (2 * (mag e / 2 ^ N.of_nat (S k))) mod mag m).
      { rewrite V2, N.mod_mod, V1 by exact M0. rewrite (mod_mul2 _ _ _ _ _ M0 V V). rewrite <- N.pow_add_r. do 2 f_equal. generalize (mag e / 2 ^ N.of_nat (S k)). clear. intros; lia. }
      pose proof (shift_bit (mag e) k) as SB. destruct (N.testbit (mag e) (N.of_nat k)).
      + destruct (lmul d2 x W2 Hx ltac:(clear - L2 S2; lia)) as (d3 & E3 & W3 & V3 & N3 & L3 & G3). rewrite E3. cbn [obind].
        destruct (lreduce d3 m W3 Hm M0 ltac:(clear - L3 L2 S2; lia) (N3 N2 Nx) Nm) as (d4 & E4 & W4 & V4 & N4 & L4 & T4). rewrite E4. cbn [obind].
        assert (B4 : mag d4 < mag m) by (rewrite V4; apply N.mod_lt; exact M0).
        assert (Q4 : tight -> wfp d2 -> wfp d4).
        { intros T Q. destruct (Nat.eq_dec (len d2) 0) as [Z|Z].
          - (* zero *) apply T4. right. unfold bn_mul in E3. clear - E3 Z W2 V3 Q W3 Hx L3.
            assert (M2 : mag d2 = 0) by (apply mag_0; auto). rewrite M2, N.mul_0_l in V3.
            destruct (Nat.eqb_spec (len x) 1) as [X1|X1].
            { destruct (nth_error (dat x) 0) as [w|] eqn:Ew; [|discriminate]. cbn [obind] in E3.
              unfold bn_mul_word in E3. rewrite Z in E3. cbn [mulw_limbs obind mulw_carry] in E3. change (0 =? 0) with true in E3. cbn [obind fst snd] in E3.
              injection E3 as <-. cbn [set_neg neg dat overlay] in *. change (overlay [] (dat d2)) with (dat d2). destruct d2 as [t n l]. cbn [len dat] in *. subst n.
              apply (wfp_set_neg (mkBn t 0 l)). exact Q. }
            rewrite Z in E3. cbn [Nat.eqb] in E3.
            unfold bn_abs_compare in E3. rewrite Z in E3. cbn [Nat.eqb negb] in E3. change (len bn_zero) with 0%nat in E3. cbn [Nat.eqb negb obind] in E3.
            destruct (Nat.eqb_spec (len x) 0); cbn [negb obind Z.eqb orb] in E3; injection E3 as <-; apply wfp_zero.
          - destruct T as [T|T]; apply T4.
            + right. exact (mul_wfp _ _ _ Q T ltac:(clear - L2 S2; lia) E3).
            + left. clear - G3 T Z. specialize (G3 ltac:(lia) ltac:(lia)). lia. }
        destruct (IH d4) as (r & Er & Wr & Nr & Vr & Cr & Tr); [clear - Hk; lia|exact W4|exact N4|right; split; assumption| |].
        * rewrite V4, N.mod_mod, V3 by exact M0. rewrite SB, N.pow_add_r, N.pow_1_r. apply mod_mul2; [exact M0|exact P2|reflexivity].
        * exists r. split; [exact Er|]. split; [exact Wr|]. split; [exact Nr|]. split; [exact Vr|].
          split; [destruct Cr as [[_ ->]|Cr]; right; [split; assumption|exact Cr]|].
          intros _ T Q. destruct k as [|k']; [|apply Tr; auto].
          destruct Cr as [[_ ->]|[Cr1 Cr2]]; [apply Q4; auto|]. cbn [pwr_mod_loop] in Er. injection Er as <-. apply Q4; auto.
      + destruct (IH d2) as (r & Er & Wr & Nr & Vr & Cr & Tr); [clear - Hk; lia|exact W2|exact N2|right; split; assumption| |].
        * rewrite SB, N.add_0_r. exact P2.
        * exists r. split; [exact Er|]. split; [exact Wr|]. split; [exact Nr|]. split; [exact Vr|].
          split; [destruct Cr as [[_ ->]|Cr]; right; [split; assumption|exact Cr]|].
          intros _ T Q. destruct k as [|k']; [|apply Tr; auto].
          destruct Cr as [[_ ->]|[Cr1 Cr2]]; [apply Q2; auto|]. cbn [pwr_mod_loop] in Er. injection Er as <-. apply Q2; auto.
  Qed.

  (** The power is right modulo [m], and reduced when the base was or the exponent is at least two. *)
  Lemma lpwr : neg e = false -> mag m <> 1 ->
    exists r, bn_pwr x e (Some m) = Some (Some r) /\ wfl r /\ neg r = false /\ mag r mod mag m = mag x ^ mag e mod mag m /\
      (2 <= mag e \/ mag x < mag m -> mag r < mag m) /\ (2 <= mag e \/ (len x <= len m)%nat -> (len r <= len m)%nat) /\
      (2 <= mag e -> tight -> wfp r).
  Proof using Hx Nx He Hm Nm M0 S1 S2 S3.
    intros Ne M1. unfold bn_pwr. rewrite Ne. pose proof (high_bit_len e (proj2 (wf_wfp e) He)) as H.
    destruct (high_bit (len e * 32) e) as [[i|]|]; [| |contradiction]; cbn [obind].
    - destruct H as [H1 H2]. destruct (lpwr_loop i x) as (r & Er & Wr & Nr & Vr & Cr & Tr); [clear - H2; lia|exact Hx|exact Nx|now left|rewrite H1, N.pow_1_r; reflexivity|].
      exists r. split; [exact Er|]. split; [exact Wr|]. split; [exact Nr|]. split; [exact Vr|].
      assert (I0 : 2 <= mag e -> i <> 0%nat) by (intros Q ->; change (2 ^ N.of_nat 0) with 1 in H1; rewrite N.div_1_r in H1; clear - Q H1; lia).
      split; [|split].
      + intros Q. destruct Cr as [[-> ->]|[Cr _]]; [|exact Cr]. destruct Q as [Q|Q]; [apply I0 in Q; congruence|exact Q].
      + intros Q. destruct Cr as [[-> ->]|[_ Cr]]; [|exact Cr]. destruct Q as [Q|Q]; [apply I0 in Q; congruence|exact Q].
      + intros Q T. apply Tr; auto.
    - exists bn_one. rewrite H. split; [reflexivity|]. assert (W1 : wfp bn_one) by (apply (wfp_small false 1); reflexivity).
      assert (O1 : mag bn_one = 1) by reflexivity. assert (LM : (1 <= len m)%nat) by (destruct (Nat.eq_dec (len m) 0) as [Z|Z]; [apply (mag_0 m Hm) in Z; congruence|lia]).
      split; [now apply wfp_wfl|]. split; [reflexivity|]. split; [rewrite O1; reflexivity|]. rewrite O1. split; [intros _; clear - M0 M1; lia|].
      split; [intros _; exact LM|]. intros _ _. exact W1.
  Qed.
End Power.

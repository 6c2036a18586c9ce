Require Import List Arith NArith ZArith Lia Bool.
Require Import ZifyBool ZifyNat ZifyN.
Require Import Verif.Base Verif.BnModel Verif.BnSpec.
Import ListNotations.
Open Scope N_scope.

Notation BB := 4294967296.
Notation W := 18446744073709551616.
Definition P (n : nat) : N := BB ^ N.of_nat n.
Notation val := limbs_value.
Definition limb (x : N) : Prop := x < BB.
Definition limbs (l : list N) : Prop := Forall limb l.

Lemma P_0 : P 0 = 1. Proof. reflexivity. Qed.
Lemma P_S n : P (S n) = BB * P n.
Proof. unfold P. rewrite Nat2N.inj_succ, N.pow_succ_r'. reflexivity. Qed.
Lemma P_add n m : P (n + m) = P n * P m.
Proof. unfold P. rewrite Nat2N.inj_add, N.pow_add_r. reflexivity. Qed.
Lemma P_pos n : 1 <= P n.
Proof. induction n; [rewrite P_0|rewrite P_S]; lia. Qed.
Lemma P_nz n : P n <> 0. Proof. pose proof (P_pos n). lia. Qed.
Lemma P_mono n m : (n <= m)%nat -> P n <= P m.
Proof. intros H. unfold P. apply N.pow_le_mono_r; lia. Qed.
Lemma P_fits : P SIZE = 2 ^ 8224. Proof. reflexivity. Qed.
Lemma P_le_inv n m : P n < P m -> (n < m)%nat.
Proof. intros H. destruct (le_lt_dec m n) as [L|L]; auto. pose proof (P_mono _ _ L). lia. Qed.

Lemma w64_small x : x < W -> w64 x = x.
Proof. intros H. unfold w64. apply N.mod_small. exact H. Qed.

Lemma val_cons x t : val (x :: t) = x + BB * val t. Proof. reflexivity. Qed.
Lemma val_nil : val [] = 0. Proof. reflexivity. Qed.
Lemma val_app a b : val (a ++ b) = val a + P (length a) * val b.
Proof.
  induction a as [|x a IH]; cbn [app length]; [rewrite P_0, val_nil; lia|].
  rewrite !val_cons, IH, P_S. lia.
Qed.
Lemma val_bound l : limbs l -> val l < P (length l).
Proof.
  induction 1 as [|x t Hx Ht IH]; [reflexivity|].
  cbn [length]. rewrite val_cons, P_S. unfold limb in Hx. lia.
Qed.
Lemma val_repeat0 n : val (repeat 0 n) = 0.
Proof. induction n; cbn [repeat]; [reflexivity|]. rewrite val_cons, IHn. lia. Qed.
Lemma val_zeros n : val (zeros n) = 0. Proof. apply val_repeat0. Qed.
Lemma limbs_zeros n : limbs (zeros n).
Proof. unfold zeros. apply Forall_forall. intros x H. apply repeat_spec in H. subst. reflexivity. Qed.
Lemma zeros_length n : length (zeros n) = n. Proof. apply repeat_length. Qed.

Lemma val_zero_iff l : val l = 0 <-> l = zeros (length l).
Proof.
  split; [|intros ->; apply val_zeros].
  induction l as [|x t IH]; intros H; [reflexivity|].
  rewrite val_cons in H. cbn [length]. unfold zeros. cbn [repeat].
  f_equal; [lia|]. apply IH. lia.
Qed.

Lemma limbs_app a b : limbs (a ++ b) <-> limbs a /\ limbs b.
Proof. apply Forall_app. Qed.
Lemma limbs_firstn n l : limbs l -> limbs (firstn n l).
Proof.
  intros H. rewrite <- (firstn_skipn n l) in H. apply limbs_app in H. tauto.
Qed.
Lemma limbs_skipn n l : limbs l -> limbs (skipn n l).
Proof.
  intros H. rewrite <- (firstn_skipn n l) in H. apply limbs_app in H. tauto.
Qed.
Lemma val_split n l : (n <= length l)%nat -> val l = val (firstn n l) + P n * val (skipn n l).
Proof.
  intros H. rewrite <- (firstn_skipn n l) at 1. rewrite val_app, firstn_length_le by auto. reflexivity.
Qed.
Lemma firstn_S_nth (l : list N) k x : nth_error l k = Some x -> firstn (S k) l = firstn k l ++ [x].
Proof.
  revert k; induction l as [|h t IH]; intros [|k] H; cbn in *; try congruence.
  f_equal. apply IH; auto.
Qed.
Lemma skipn_nth (l : list N) k x : nth_error l k = Some x -> skipn k l = x :: skipn (S k) l.
Proof.
  revert k; induction l as [|h t IH]; intros [|k] H; cbn in *; try congruence.
  apply IH; auto.
Qed.
Lemma val_firstn_S l k x : (k <= length l)%nat -> nth_error l k = Some x ->
  val (firstn (S k) l) = val (firstn k l) + P k * x.
Proof.
  intros H E. rewrite (firstn_S_nth _ _ _ E), val_app, firstn_length_le by auto.
  rewrite val_cons, val_nil. lia.
Qed.
Lemma nth_error_lt (l : list N) k : (k < length l)%nat -> exists x, nth_error l k = Some x.
Proof.
  intros H. destruct (nth_error l k) eqn:E; [eauto|]. apply nth_error_None in E. lia.
Qed.
Lemma limbs_nth l k x : limbs l -> nth_error l k = Some x -> x < BB.
Proof. intros H E. exact (proj1 (Forall_forall _ _) H x (nth_error_In _ _ E)). Qed.
Lemma overlay_length r l : (length r <= length l)%nat -> length (overlay r l) = length l.
Proof. intros H. unfold overlay. rewrite app_length, skipn_length. lia. Qed.
Lemma limbs_overlay r l : limbs r -> limbs l -> limbs (overlay r l).
Proof. intros. apply limbs_app. split; auto using limbs_skipn. Qed.
Lemma val_overlay r l : val (overlay r l) = val r + P (length r) * val (skipn (length r) l).
Proof. apply val_app. Qed.

Lemma skipn_plus (l : list N) : forall x y, skipn x (skipn y l) = skipn (y + x) l.
Proof. intros x y. revert l; induction y as [|y IH]; intros l; [reflexivity|]. destruct l; cbn; [destruct x; auto|apply IH]. Qed.

(** ** The limb loops *)
Lemma add_limbs_ok n : forall a b c, (n <= length a)%nat -> (n <= length b)%nat -> limbs a -> limbs b -> c <= 1 ->
  exists r cf, add_limbs n a b c = Some (r, cf) /\ length r = n /\ limbs r /\ cf <= 1 /\
    val r + cf * P n = val (firstn n a) + val (firstn n b) + c.
Proof.
  induction n as [|n IH]; intros a b c Ha Hb La Lb Hc.
  - exists [], c. cbn [add_limbs firstn length]. rewrite P_0, val_nil. repeat split; auto; [constructor|lia].
  - destruct a as [|x a]; [cbn in Ha; lia|]. destruct b as [|y b]; [cbn in Hb; lia|].
    inversion La as [|? ? Hx La']; subst. inversion Lb as [|? ? Hy Lb']; subst. unfold limb in *.
    cbn [add_limbs firstn]. rewrite w64_small by lia. change B32 with BB.
    destruct (N.leb_spec BB (x + y + c)) as [L|L].
    + destruct (IH a b 1) as (r & cf & E & Hr & Lr & Hcf & V); auto; try (cbn in *; lia).
      rewrite E. cbn [obind fst snd]. exists (x + y + c - BB :: r), cf.
      repeat split; auto; [cbn; lia|constructor; auto; unfold limb; lia|].
      rewrite !val_cons, P_S. nia.
    + destruct (IH a b 0) as (r & cf & E & Hr & Lr & Hcf & V); auto; try (cbn in *; lia).
      rewrite E. cbn [obind fst snd]. exists (x + y + c :: r), cf.
      repeat split; auto; [cbn; lia|constructor; auto; unfold limb; lia|].
      rewrite !val_cons, P_S. nia.
Qed.

Lemma sub_limbs_ok n : forall a b c, (n <= length a)%nat -> (n <= length b)%nat -> limbs a -> limbs b -> c <= 1 ->
  exists r cf, sub_limbs n a b c = Some (r, cf) /\ length r = n /\ limbs r /\ cf <= 1 /\
    val r + val (firstn n b) + c = val (firstn n a) + cf * P n.
Proof.
  induction n as [|n IH]; intros a b c Ha Hb La Lb Hc.
  - exists [], c. cbn [sub_limbs firstn length]. rewrite P_0, val_nil. repeat split; auto; [constructor|lia].
  - destruct a as [|x a]; [cbn in Ha; lia|]. destruct b as [|y b]; [cbn in Hb; lia|].
    inversion La as [|? ? Hx La']; subst. inversion Lb as [|? ? Hy Lb']; subst. unfold limb in *.
    cbn [sub_limbs firstn]. rewrite (w64_small (y + c)), (w64_small (x + B32)) by (change B32 with BB; lia). change B32 with BB.
    destruct (N.ltb_spec x (y + c)) as [L|L].
    + destruct (IH a b 1) as (r & cf & E & Hr & Lr & Hcf & V); auto; try (cbn in *; lia).
      rewrite E. cbn [obind fst snd]. exists (x + BB - (y + c) :: r), cf.
      repeat split; auto; [cbn; lia|constructor; auto; unfold limb; lia|].
      rewrite !val_cons, P_S. nia.
    + destruct (IH a b 0) as (r & cf & E & Hr & Lr & Hcf & V); auto; try (cbn in *; lia).
      rewrite E. cbn [obind fst snd]. exists (x - (y + c) :: r), cf.
      repeat split; auto; [cbn; lia|constructor; auto; unfold limb; lia|].
      rewrite !val_cons, P_S. nia.
Qed.

Lemma cmp_down_ok k : forall a b, (k <= length a)%nat -> (k <= length b)%nat -> limbs a -> limbs b ->
  exists z, cmp_down k a b = Some z /\
    z = match N.compare (val (firstn k a)) (val (firstn k b)) with Lt => -1 | Eq => 0 | Gt => 1 end%Z.
Proof.
  induction k as [|k IH]; intros a b Ha Hb La Lb; [exists 0%Z; auto|].
  destruct (nth_error_lt a k) as [x Ex]; [lia|]. destruct (nth_error_lt b k) as [y Ey]; [lia|].
  cbn [cmp_down]. rewrite Ex, Ey. cbn [obind].
  rewrite (val_firstn_S a k x), (val_firstn_S b k y) by (auto; lia).
  pose proof (val_bound _ (limbs_firstn k a La)) as Ba. pose proof (val_bound _ (limbs_firstn k b Lb)) as Bb.
  rewrite firstn_length_le in Ba, Bb by lia.
  destruct (N.ltb_spec y x) as [L|L]; [|destruct (N.ltb_spec x y) as [M|M]].
  - exists 1%Z. split; auto.
    assert (E : val (firstn k a) + P k * x > val (firstn k b) + P k * y) by nia.
    destruct (N.compare_spec (val (firstn k a) + P k * x) (val (firstn k b) + P k * y)); lia.
  - exists (-1)%Z. split; auto.
    assert (E : val (firstn k a) + P k * x < val (firstn k b) + P k * y) by nia.
    destruct (N.compare_spec (val (firstn k a) + P k * x) (val (firstn k b) + P k * y)); lia.
  - assert (x = y) by lia. subst y. destruct (IH a b) as (z & E & V); auto; try lia.
    exists z. split; auto. rewrite V.
    destruct (N.compare_spec (val (firstn k a)) (val (firstn k b))),
      (N.compare_spec (val (firstn k a) + P k * x) (val (firstn k b) + P k * x)); lia.
Qed.

(** [top] finds the length without leading zeros. *)
Lemma top_ok n : forall l, (n <= length l)%nat ->
  exists k, top n l = Some k /\ (k <= n)%nat /\ (forall i, (k <= i < n)%nat -> nth i l 0 = 0) /\
    (k = 0%nat \/ nth (k - 1) l 0 <> 0).
Proof.
  induction n as [|n IH]; intros l H; [exists 0%nat; repeat split; auto; intros; lia|].
  destruct (nth_error_lt l n) as [x E]; [lia|]. cbn [top]. rewrite E. cbn [obind].
  pose proof (nth_error_nth l n 0 E) as N0.
  destruct (N.eqb_spec x 0) as [->|Hx].
  - destruct (IH l) as (k & Ek & Hk & Z & T); [lia|]. exists k. repeat split; auto.
    intros i Hi. destruct (Nat.eq_dec i n) as [->|]; auto. apply Z. lia.
  - exists (S n). repeat split; auto; [intros; lia|]. right. replace (S n - 1)%nat with n by lia. congruence.
Qed.

(** ** Well-formed structures *)
Lemma nth_skipn (l : list N) n i : nth i (skipn n l) 0 = nth (n + i) l 0.
Proof. revert l; induction n as [|n IH]; intros [|x l]; cbn; auto. destruct i; auto. Qed.
Lemma all_zero l : (forall i, nth i l 0 = 0) -> l = zeros (length l).
Proof.
  induction l as [|x t IH]; intros H; [reflexivity|]. cbn [length]. unfold zeros in *. cbn [repeat].
  f_equal; [exact (H 0%nat)|]. apply IH. intros i. exact (H (S i)).
Qed.
Lemma nth_zeros n i : nth i (zeros n) 0 = 0.
Proof. unfold zeros. revert i; induction n; intros [|i]; cbn; auto. Qed.

Record wfp (b : bn) : Prop := {
  wf_size : length (dat b) = SIZE;
  wf_limbs : limbs (dat b);
  wf_len : (len b <= SIZE)%nat;
  wf_high : skipn (len b) (dat b) = zeros (SIZE - len b);
  wf_top : len b = 0%nat \/ nth (len b - 1) (dat b) 0 <> 0 }.

Lemma wf_wfp b : wf b <-> wfp b.
Proof.
  unfold wf. split.
  - intros (H1 & H2 & H3 & H4 & H5). constructor; auto.
    rewrite (all_zero (skipn (len b) (dat b))).
    + rewrite skipn_length, H1. reflexivity.
    + intros i. rewrite nth_skipn. apply H4. lia.
  - intros [H1 H2 H3 H4 H5]. repeat split; auto.
    intros i Hi. replace i with (len b + (i - len b))%nat by lia.
    rewrite <- nth_skipn, H4. apply nth_zeros.
Qed.

Lemma mag_firstn b : wfp b -> mag b = val (firstn (len b) (dat b)).
Proof.
  intros H. unfold mag. rewrite (val_split (len b)) by (rewrite (wf_size _ H); apply (wf_len _ H)).
  rewrite (wf_high _ H), val_zeros. lia.
Qed.
Lemma mag_firstn_ge b n : wfp b -> (len b <= n)%nat -> (n <= SIZE)%nat -> mag b = val (firstn n (dat b)).
Proof.
  intros H Hn Hs. unfold mag. rewrite (val_split n) by (rewrite (wf_size _ H); auto).
  replace (skipn n (dat b)) with (skipn (n - len b) (skipn (len b) (dat b))).
  2:{ rewrite skipn_plus. f_equal. lia. }
  rewrite (wf_high _ H).
  assert (E : val (skipn (n - len b) (zeros (SIZE - len b))) = 0).
  { assert (V : val (zeros (SIZE - len b)) = 0) by apply val_zeros.
    rewrite (val_split (n - len b)) in V by (rewrite zeros_length; lia).
    pose proof (P_pos (n - len b)). apply N.eq_add_0 in V. destruct V as [_ V]. apply N.eq_mul_0 in V. lia. }
  rewrite E. lia.
Qed.
Lemma mag_lt b : wfp b -> mag b < P (len b).
Proof.
  intros H. rewrite mag_firstn by auto.
  pose proof (val_bound _ (limbs_firstn (len b) _ (wf_limbs _ H))) as V.
  rewrite firstn_length_le in V by (rewrite (wf_size _ H); apply (wf_len _ H)). exact V.
Qed.
Lemma nth_le_val l i x : nth_error l i = Some x -> P i * x <= val l.
Proof.
  revert i; induction l as [|h t IH]; intros [|i] H; cbn [nth_error] in H; try discriminate.
  - injection H as ->. rewrite val_cons, P_0. lia.
  - apply IH in H. rewrite val_cons, P_S. lia.
Qed.
Lemma mag_ge b : wfp b -> (0 < len b)%nat -> P (len b - 1) <= mag b.
Proof.
  intros H Hl. destruct (wf_top _ H) as [|T]; [lia|].
  destruct (nth_error_lt (dat b) (len b - 1)) as [x E]; [rewrite (wf_size _ H); pose proof (wf_len _ H); lia|].
  rewrite (nth_error_nth _ _ _ E) in T. pose proof (nth_le_val _ _ _ E) as V. unfold mag.
  pose proof (P_pos (len b - 1)). nia.
Qed.
Lemma mag_0 b : wfp b -> (mag b = 0 <-> len b = 0%nat).
Proof.
  intros H. split; intros E.
  - destruct (len b) eqn:L; auto. pose proof (mag_ge b H) as G. rewrite L in G. pose proof (P_pos (S n - 1)). lia.
  - pose proof (mag_lt b H) as G. rewrite E, P_0 in G. lia.
Qed.
Lemma len_lt_mag a b : wfp a -> wfp b -> (len a < len b)%nat -> mag a < mag b.
Proof.
  intros Ha Hb L. pose proof (mag_lt a Ha). pose proof (mag_ge b Hb).
  pose proof (P_mono (len a) (len b - 1)). lia.
Qed.
Lemma mag_fits b : wfp b -> fits (mag b).
Proof.
  intros H. unfold fits. rewrite <- P_fits. eapply N.lt_le_trans; [apply mag_lt; auto|]. apply P_mono, (wf_len _ H).
Qed.

Lemma lead0 a p v : a + p * v < p -> v = 0.
Proof. intros H. destruct (N.eq_dec v 0); auto. nia. Qed.

(** Building a well-formed structure. *)
Lemma wfp_mk t n d : length d = SIZE -> limbs d -> (n <= SIZE)%nat -> val d < P n ->
  (n = 0%nat \/ P (n - 1) <= val d) -> wfp (mkBn t n d).
Proof.
  intros Hs Hl Hn Hv Ht. constructor; cbn [dat len]; auto.
  - rewrite (val_split n) in Hv by lia. pose proof (P_pos n).
    apply lead0 in Hv. rename Hv into E.
    apply val_zero_iff in E. rewrite skipn_length, Hs in E. exact E.
  - destruct n as [|n]; [left; auto|right]. replace (S n - 1)%nat with n in * by lia.
    destruct Ht as [|Ht]; [lia|]. destruct (nth_error_lt d n) as [x E]; [lia|].
    rewrite (nth_error_nth _ _ _ E). intros ->.
    assert (Hn' : (n <= length d)%nat) by lia.
    rewrite (val_split (S n)) in Ht, Hv by lia. rewrite (val_firstn_S _ _ _ Hn' E) in Ht, Hv.
    pose proof (val_bound _ (limbs_firstn n d Hl)) as Bd. rewrite firstn_length_le in Bd by lia.
    pose proof (P_pos n). rewrite P_S in *.
    apply lead0 in Hv. rewrite Hv in Ht. lia.
Qed.
Lemma wfp_top t n d m : length d = SIZE -> limbs d -> (n <= SIZE)%nat -> val d < P n -> top n d = Some m ->
  wfp (mkBn t m d).
Proof.
  intros Hs Hl Hn Hv E. destruct (top_ok n d) as (k & Ek & Hk & Z & T); [lia|].
  rewrite Ek in E. injection E as <-.
  apply wf_wfp. unfold wf. cbn [len dat]. repeat split; auto; [unfold SIZE in *; lia|].
  intros i Hi. destruct (Nat.lt_ge_cases i n) as [L|L]; [apply Z; lia|].
  rewrite (val_split n) in Hv by lia. pose proof (P_pos n).
  apply lead0 in Hv. rename Hv into E0.
  apply val_zero_iff in E0. replace i with (n + (i - n))%nat by lia. rewrite <- nth_skipn, E0. apply nth_zeros.
Qed.
Lemma wfp_zero : wfp bn_zero.
Proof.
  constructor; cbn [dat len bn_zero]; [reflexivity|apply limbs_zeros|unfold SIZE; lia|reflexivity|auto].
Qed.
Lemma mag_zero : mag bn_zero = 0. Proof. reflexivity. Qed.
Lemma wfp_set_neg b t : wfp b -> wfp (set_neg b t).
Proof. intros [H1 H2 H3 H4 H5]. constructor; auto. Qed.
Lemma mag_set_neg b t : mag (set_neg b t) = mag b. Proof. reflexivity. Qed.

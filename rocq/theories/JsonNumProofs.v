Require Import List Arith NArith ZArith Lia Bool SpecFloat.
Require Import ZifyBool ZifyNat ZifyN.
Require Import Verif.Base Verif.JsonNumModel.
Import ListNotations.
Open Scope Z_scope.

(** ** Numbers of binary digits *)
Lemma digits2_bounds p : 2 ^ (Z.pos (digits2_pos p) - 1) <= Z.pos p < 2 ^ Z.pos (digits2_pos p).
Proof.
  induction p as [p IH|p IH|]; cbn [digits2_pos].
  - rewrite Pos2Z.inj_succ, Pos2Z.inj_xI. generalize dependent (Z.pos p). intros x.
    assert (0 <= Z.pos (digits2_pos p) - 1) by lia. generalize dependent (Z.pos (digits2_pos p)). intros d Hd IH.
    replace (Z.succ d - 1) with (Z.succ (d - 1)) by lia. rewrite !Z.pow_succ_r by lia. clear - IH Hd. lia.
  - rewrite Pos2Z.inj_succ. change (Z.pos p~0) with (2 * Z.pos p). generalize dependent (Z.pos p). intros x.
    assert (0 <= Z.pos (digits2_pos p) - 1) by lia. generalize dependent (Z.pos (digits2_pos p)). intros d Hd IH.
    replace (Z.succ d - 1) with (Z.succ (d - 1)) by lia. rewrite !Z.pow_succ_r by lia. clear - IH Hd. lia.
  - cbn. lia.
Qed.
Lemma digits2_unique p d : 0 <= d -> 2 ^ (d - 1) <= Z.pos p < 2 ^ d -> Z.pos (digits2_pos p) = d.
Proof.
  intros Hd [Hl Hu]. destruct (digits2_bounds p) as [H1 H2].
  assert (d - 1 < Z.pos (digits2_pos p)) by (apply (Z.pow_lt_mono_r_iff 2); [lia|lia|lia]).
  assert (Z.pos (digits2_pos p) - 1 < d) by (apply (Z.pow_lt_mono_r_iff 2); [lia|lia|lia]).
  lia.
Qed.
(** Shifting adds digits. *)
Lemma digits2_shift p q k : 0 <= k -> Z.pos q = Z.pos p * 2 ^ k -> Z.pos (digits2_pos q) = Z.pos (digits2_pos p) + k.
Proof.
  intros Hk E. destruct (digits2_bounds p) as [H1 H2]. apply digits2_unique; [lia|]. rewrite E.
  replace (Z.pos (digits2_pos p) + k - 1) with (Z.pos (digits2_pos p) - 1 + k) by lia.
  rewrite !Z.pow_add_r by lia. pose proof (Z.pow_pos_nonneg 2 k). split; [apply Z.mul_le_mono_nonneg_r|apply Z.mul_lt_mono_pos_r]; lia.
Qed.

Lemma shift_pos_mul n p : Z.pos (shift_pos n p) = Z.pos p * 2 ^ Z.pos n.
Proof. rewrite shift_pos_correct. apply Z.mul_comm. Qed.

(** ** Rounding something that needs none *)
Lemma iter_pos_nat {A} (f : A -> A) n x : iter_pos f n x = Nat.iter (Pos.to_nat n) f x.
Proof.
  change (Nat.iter (Pos.to_nat n) f x) with (nat_rect (fun _ => A) x (fun _ => f) (Pos.to_nat n)). rewrite <- Pos2Nat.inj_iter. revert x. induction n as [n IH|n IH|]; intros x; cbn [iter_pos Pos.iter]; rewrite ?IH; [|reflexivity..].
  rewrite <- !Pos.iter_swap. reflexivity.
Qed.
Lemma iter_inside {A} (f : A -> A) n x : Nat.iter (S n) f x = Nat.iter n f (f x).
Proof. induction n as [|n IH]; [reflexivity|]. cbn [Nat.iter] in *. unfold Nat.iter in *. cbn [nat_rect] in *. rewrite IH. reflexivity. Qed.
Lemma shr_exact n : forall q : positive, Nat.iter n shr_1 (Build_shr_record (Z.pos q * 2 ^ Z.of_nat n) false false) = Build_shr_record (Z.pos q) false false.
Proof.
  induction n as [|n IH]; intros q.
  - cbn [Nat.iter]. change (2 ^ Z.of_nat 0) with 1. rewrite Z.mul_1_r. reflexivity.
  - rewrite iter_inside. replace (Z.pos q * 2 ^ Z.of_nat (S n)) with (2 * (Z.pos q * 2 ^ Z.of_nat n))
      by (rewrite Nat2Z.inj_succ, Z.pow_succ_r by lia; ring).
    destruct (Z.pos q * 2 ^ Z.of_nat n) as [|r|r] eqn:E.
    + exfalso. pose proof (Z.mul_pos_pos (Z.pos q) (2 ^ Z.of_nat n) ltac:(lia) (Z.pow_pos_nonneg 2 (Z.of_nat n) ltac:(lia) ltac:(lia))). lia.
    + cbn [Z.mul Pos.mul shr_1 orb]. rewrite <- E. apply IH.
    + exfalso. pose proof (Z.mul_pos_pos (Z.pos q) (2 ^ Z.of_nat n) ltac:(lia) (Z.pow_pos_nonneg 2 (Z.of_nat n) ltac:(lia) ltac:(lia))). lia.
Qed.

(** [m 2^e] is in the form in which doubles are kept. *)
Definition canon (m : positive) (e : Z) : Prop := fexp 53 1024 (Z.pos (digits2_pos m) + e) = e.

Lemma shr_fexp_exact m e m' e' : canon m' e' -> e <= e' -> Z.pos m = Z.pos m' * 2 ^ (e' - e) ->
  shr_fexp 53 1024 (Z.pos m) e loc_Exact = (Build_shr_record (Z.pos m') false false, e').
Proof.
  intros Hc He Hm. unfold shr_fexp. cbn [Zdigits2 shr_record_of_loc].
  assert (Hd : Z.pos (digits2_pos m) = Z.pos (digits2_pos m') + (e' - e)) by (apply digits2_shift; [lia|exact Hm]).
  replace (Z.pos (digits2_pos m) + e) with (Z.pos (digits2_pos m') + e') by lia. rewrite Hc.
  destruct (e' - e) as [|k|k] eqn:Ek; cbn [shr]; [| |lia].
  - change (2 ^ 0) with 1 in Hm. rewrite Z.mul_1_r in Hm. f_equal; [f_equal; exact Hm|lia].
  - f_equal; [|lia]. rewrite iter_pos_nat, Hm. rewrite <- (positive_nat_Z k). apply shr_exact.
Qed.
Lemma round_aux_exact s m e m' e' : canon m' e' -> e' <= 971 -> e <= e' -> Z.pos m = Z.pos m' * 2 ^ (e' - e) ->
  binary_round_aux 53 1024 s (Z.pos m) e loc_Exact = S754_finite s m' e'.
Proof.
  intros Hc Hb He Hm. unfold binary_round_aux. rewrite (shr_fexp_exact m e m' e' Hc He Hm).
  cbn [shr_m loc_of_shr_record round_nearest_even].
  rewrite (shr_fexp_exact m' e' m' e'); [|exact Hc|lia|rewrite Z.sub_diag; symmetry; apply Z.mul_1_r]. cbn [shr_m].
  destruct (Z.leb_spec e' (1024 - 53)); [reflexivity|lia].
Qed.
(** The same value at any two exponents not below [-k]. *)
Lemma round_exact s m e m' e' k : canon m' e' -> e' <= 971 -> 0 <= e + k -> 0 <= e' + k -> Z.pos m * 2 ^ (e + k) = Z.pos m' * 2 ^ (e' + k) ->
  binary_round 53 1024 s m e = S754_finite s m' e'.
Proof.
  intros Hc Hb H1 H2 E. unfold binary_round.
  assert (Hd : Z.pos (digits2_pos m) + e = Z.pos (digits2_pos m') + e').
  { assert (Ep : exists q, Z.pos q = Z.pos m * 2 ^ (e + k)).
    { pose proof (Z.pow_pos_nonneg 2 (e + k)). exists (Z.to_pos (Z.pos m * 2 ^ (e + k))). rewrite Z2Pos.id; [reflexivity|]. apply Z.mul_pos_pos; lia. }
    destruct Ep as [q Eq]. pose proof (digits2_shift m q (e + k) H1 Eq). rewrite E in Eq. pose proof (digits2_shift m' q (e' + k) H2 Eq). lia. }
  rewrite Hd, Hc. unfold shl_align. destruct (e' - e) as [|d|d] eqn:Ed.
  - assert (e' = e) by lia. subst e'. apply round_aux_exact; [exact Hc|lia|lia|].
    rewrite Z.sub_diag. change (2 ^ 0) with 1. rewrite Z.mul_1_r. pose proof (Z.pow_pos_nonneg 2 (e + k)). apply Z.mul_cancel_r in E; [exact E|lia].
  - apply round_aux_exact; [exact Hc|lia|lia|]. replace (e' + k) with ((e' - e) + (e + k)) in E by lia. rewrite (Z.pow_add_r 2 (e' - e)) in E by lia.
    pose proof (Z.pow_pos_nonneg 2 (e + k)). rewrite Z.mul_assoc in E. apply Z.mul_cancel_r in E; [exact E|lia].
  - apply round_aux_exact; [exact Hc|lia|lia|]. rewrite Z.sub_diag. change (2 ^ 0) with 1. rewrite Z.mul_1_r, shift_pos_mul.
    replace (e + k) with (Z.pos d + (e' + k)) in E by lia. rewrite (Z.pow_add_r 2 (Z.pos d)) in E by lia.
    pose proof (Z.pow_pos_nonneg 2 (e' + k)). rewrite Z.mul_assoc in E. apply Z.mul_cancel_r in E; [exact E|lia].
Qed.

(** ** Integers *)
(** The double of [n], for [n] from 1 to [2^53]: [m 2^e] with 53 digits. *)
Lemma z2d_pos n : Z.pos n <= 2 ^ 53 ->
  exists m e, z2d (Z.pos n) = S754_finite false m e /\ z2d (Z.neg n) = S754_finite true m e /\ canon m e /\ -52 <= e <= 1 /\ Z.pos (digits2_pos m) = 53 /\
              Z.pos n * 2 ^ 52 = Z.pos m * 2 ^ (e + 52).
Proof.
  intros H. destruct (digits2_bounds n) as [Hl Hu].
  assert (Hd : Z.pos (digits2_pos n) <= 54).
  { assert (Z.pos (digits2_pos n) - 1 < 54); [|lia]. apply (Z.pow_lt_mono_r_iff 2); [lia|lia|]. eapply Z.le_lt_trans; [exact Hl|].
    eapply Z.le_lt_trans; [exact H|reflexivity]. }
  assert (Hm : exists m e, canon m e /\ -52 <= e <= 1 /\ Z.pos (digits2_pos m) = 53 /\ Z.pos n * 2 ^ 52 = Z.pos m * 2 ^ (e + 52)).
  { destruct (Z.eq_dec (Z.pos (digits2_pos n)) 54) as [E54|N54].
    - assert (Z.pos n = 2 ^ 53) as E. { rewrite E54 in Hl. change (54 - 1) with 53 in Hl. lia. }
      exists (2 ^ 52)%positive, 1. repeat split; try (vm_compute; congruence). rewrite E. reflexivity.
    - set (k := 53 - Z.pos (digits2_pos n)). assert (Hk : 0 <= k) by (subst k; lia).
      assert (Em : Z.pos (Z.to_pos (Z.pos n * 2 ^ k)) = Z.pos n * 2 ^ k).
      { apply Z2Pos.id. apply Z.mul_pos_pos; [lia|]. apply Z.pow_pos_nonneg; [lia|exact Hk]. }
      exists (Z.to_pos (Z.pos n * 2 ^ k)), (- k).
      assert (Hdm : Z.pos (digits2_pos (Z.to_pos (Z.pos n * 2 ^ k))) = 53).
      { rewrite (digits2_shift n _ k Hk Em). subst k. lia. }
      split; [|split; [subst k; lia|split; [exact Hdm|]]].
      + unfold canon. rewrite Hdm. unfold fexp, emin. subst k. lia.
      + rewrite Em. rewrite <- Z.mul_assoc, <- Z.pow_add_r by (subst k; lia). f_equal. f_equal. subst k. lia. }
  destruct Hm as (m & e & Hc & He & Hdm & Em). exists m, e. unfold z2d. cbn [binary_normalize].
  rewrite !(round_exact _ n 0 m e 52); try assumption; try lia. auto 6.
Qed.

Lemma dmul_pos a b : Z.pos (a * b) <= 2 ^ 53 -> dmul (z2d (Z.pos a)) (z2d (Z.pos b)) = z2d (Z.pos (a * b)).
Proof.
  intros H. assert (Ha : Z.pos a <= 2 ^ 53) by lia. assert (Hb : Z.pos b <= 2 ^ 53) by lia.
  destruct (z2d_pos a Ha) as (ma & ea & -> & _ & _ & Bea & Da & Va). destruct (z2d_pos b Hb) as (mb & eb & -> & _ & _ & Beb & Db & Vb).
  destruct (z2d_pos _ H) as (m & e & -> & _ & Hc & Be & Dm & V). unfold dmul, SFmul. cbn [xorb].
  assert (E : Z.pos (ma * mb) * 2 ^ (ea + eb + 104) = Z.pos m * 2 ^ (e + 104)).
  { rewrite Pos2Z.inj_mul. replace (ea + eb + 104) with ((ea + 52) + (eb + 52)) by lia. rewrite (Z.pow_add_r 2 (ea + 52)) by lia.
    replace (e + 104) with ((e + 52) + 52) by lia. rewrite (Z.pow_add_r 2 (e + 52) 52) by lia. rewrite (Z.mul_assoc (Z.pos m)), <- V.
    rewrite Pos2Z.inj_mul. clear - Va Vb. generalize dependent (2 ^ (ea + 52)). generalize dependent (2 ^ (eb + 52)). generalize (2 ^ 52). intros.
    replace (Z.pos ma * Z.pos mb * (z1 * z0)) with ((Z.pos ma * z1) * (Z.pos mb * z0)) by ring. rewrite <- Va, <- Vb. ring. }
  assert (Hlt : ea + eb <= e).
  { assert (Hbig : 2 ^ 104 <= Z.pos (ma * mb)).
    { rewrite Pos2Z.inj_mul. destruct (digits2_bounds ma) as [L1 _]. destruct (digits2_bounds mb) as [L2 _]. rewrite Da in L1. rewrite Db in L2.
      change (2 ^ 104) with (2 ^ (53 - 1) * 2 ^ (53 - 1)). apply Z.mul_le_mono_nonneg; [vm_compute; congruence|exact L1|vm_compute; congruence|exact L2]. }
    assert (Hsm : Z.pos m < 2 ^ 53). { destruct (digits2_bounds m) as [_ U]. rewrite Dm in U. exact U. }
    destruct (Z.le_gt_cases (ea + eb) e) as [|Hgt]; [assumption|]. exfalso.
    assert (2 ^ (e + 104) <= 2 ^ (ea + eb + 104)) by (apply Z.pow_le_mono_r; lia). pose proof (Z.pow_pos_nonneg 2 (e + 104)).
    assert (2 ^ 53 * 2 ^ (e + 104) <= Z.pos (ma * mb) * 2 ^ (ea + eb + 104)).
    { apply Z.mul_le_mono_nonneg; [vm_compute; congruence| |lia|assumption]. eapply Z.le_trans; [|exact Hbig]. vm_compute. congruence. }
    assert (Z.pos m * 2 ^ (e + 104) < 2 ^ 53 * 2 ^ (e + 104)) by (apply Z.mul_lt_mono_pos_r; lia). lia. }
  apply round_aux_exact; [exact Hc|lia|exact Hlt|].
  replace (e + 104) with ((e - (ea + eb)) + (ea + eb + 104)) in E by lia. rewrite (Z.pow_add_r 2 (e - (ea + eb))) in E by lia.
  pose proof (Z.pow_pos_nonneg 2 (ea + eb + 104)). rewrite Z.mul_assoc in E. apply Z.mul_cancel_r in E; [exact E|lia].
Qed.

Lemma shl_align_val m e e' k : e' <= e -> 0 <= e' + k -> Z.pos (fst (shl_align m e e')) * 2 ^ (e' + k) = Z.pos m * 2 ^ (e + k).
Proof.
  intros He Hk. unfold shl_align. destruct (e' - e) as [|d|d] eqn:E; cbn [fst]; [|lia|].
  - replace e' with e by lia. reflexivity.
  - rewrite shift_pos_mul. replace (e + k) with (Z.pos d + (e' + k)) by lia. rewrite (Z.pow_add_r 2 (Z.pos d)) by lia. ring.
Qed.
Lemma dadd_pos a b : Z.pos (a + b) <= 2 ^ 53 -> dadd (z2d (Z.pos a)) (z2d (Z.pos b)) = z2d (Z.pos (a + b)).
Proof.
  intros H. assert (Ha : Z.pos a <= 2 ^ 53) by lia. assert (Hb : Z.pos b <= 2 ^ 53) by lia.
  destruct (z2d_pos a Ha) as (ma & ea & -> & _ & _ & Bea & Da & Va). destruct (z2d_pos b Hb) as (mb & eb & -> & _ & _ & Beb & Db & Vb).
  destruct (z2d_pos _ H) as (m & e & -> & _ & Hc & Be & Dm & V). unfold dadd, SFadd. cbn [cond_Zopp].
  pose proof (shl_align_val ma ea (Z.min ea eb) 52 ltac:(lia) ltac:(lia)) as Ra.
  pose proof (shl_align_val mb eb (Z.min ea eb) 52 ltac:(lia) ltac:(lia)) as Rb.
  rewrite <- Pos2Z.inj_add. cbn [binary_normalize]. apply round_exact with (k := 52); [exact Hc|lia|lia|lia|].
  rewrite Pos2Z.inj_add, Z.mul_add_distr_r, Ra, Rb, <- Va, <- Vb, <- V, Pos2Z.inj_add. ring.
Qed.

Lemma dmul_ten a : 0 <= a -> 10 * a <= 2 ^ 53 -> dmul (z2d a) ten = z2d (10 * a).
Proof.
  intros Ha H. destruct a as [|a|a]; [reflexivity| |lia]. unfold ten. rewrite Z.mul_comm in H |- *. apply (dmul_pos a 10). exact H.
Qed.
Lemma dadd_nat a b : 0 <= a -> 0 <= b -> a + b <= 2 ^ 53 -> dadd (z2d a) (z2d b) = z2d (a + b).
Proof.
  intros Ha Hb H. destruct a as [|a|a]; [| |lia]; destruct b as [|b|b]; try lia.
  - reflexivity.
  - cbn [Z.add]. cbn [Z.add] in H. destruct (z2d_pos b H) as (m & e & -> & _). reflexivity.
  - rewrite Z.add_0_r in *. destruct (z2d_pos a H) as (m & e & -> & _). reflexivity.
  - apply dadd_pos. exact H.
Qed.
Lemma z2d_opp z : 0 < z -> SFopp (z2d z) = z2d (- z).
Proof.
  intros H. destruct z as [|n|n]; try lia. cbn [Z.opp]. unfold z2d. cbn [binary_normalize]. unfold binary_round.
  destruct (shl_align n 0 (fexp 53 1024 (Z.pos (digits2_pos n) + 0))) as [m e]. unfold binary_round_aux.
  destruct (shr_fexp 53 1024 (Z.pos m) e loc_Exact) as [r e1].
  destruct (shr_fexp 53 1024 (round_nearest_even (shr_m r) (loc_of_shr_record r)) e1 loc_Exact) as [r2 e2].
  destruct (shr_m r2); cbn [SFopp negb]; try reflexivity. destruct (e2 <=? 1024 - 53); reflexivity.
Qed.
Lemma z2d_inj a b : Z.abs a <= 2 ^ 53 -> Z.abs b <= 2 ^ 53 -> z2d a = z2d b -> a = b.
Proof.
  assert (P : forall n m, Z.pos n <= 2 ^ 53 -> Z.pos m <= 2 ^ 53 -> z2d (Z.pos n) = z2d (Z.pos m) -> n = m).
  { intros n m Hn Hm E. destruct (z2d_pos n Hn) as (x & e & En & _ & _ & He & _ & V). destruct (z2d_pos m Hm) as (y & f & Em & _ & _ & Hf & _ & W).
    rewrite En, Em in E. injection E as -> ->. rewrite <- W in V. apply Z.mul_cancel_r in V; [congruence|vm_compute; congruence]. }
  assert (Q : forall n m, Z.pos n <= 2 ^ 53 -> Z.pos m <= 2 ^ 53 -> z2d (Z.pos n) <> z2d (Z.neg m)).
  { intros n m Hn Hm E. destruct (z2d_pos n Hn) as (x & e & En & _). destruct (z2d_pos m Hm) as (y & f & _ & Em & _). rewrite En, Em in E. discriminate. }
  intros Ha Hb E. destruct a as [|n|n], b as [|m|m]; cbn [Z.abs] in *; try reflexivity.
  - destruct (z2d_pos m Hb) as (y & f & Em & _). rewrite Em in E. discriminate.
  - destruct (z2d_pos m Hb) as (y & f & _ & Em & _). rewrite Em in E. discriminate.
  - destruct (z2d_pos n Ha) as (y & f & Em & _). rewrite Em in E. discriminate.
  - f_equal. exact (P n m Ha Hb E).
  - destruct (Q n m Ha Hb E).
  - destruct (z2d_pos n Ha) as (y & f & _ & Em & _). rewrite Em in E. discriminate.
  - destruct (Q m n Hb Ha (eq_sym E)).
  - f_equal. apply (P n m Ha Hb). change (Z.neg n) with (- Z.pos n) in E. change (Z.neg m) with (- Z.pos m) in E.
    rewrite <- !z2d_opp in E by lia. destruct (z2d_pos n Ha) as (x & e & En & _). destruct (z2d_pos m Hb) as (y & f & Em & _).
    rewrite En, Em in E |- *. cbn [SFopp negb] in E. congruence.
Qed.

(** The conversion to an integer undoes the conversion from one. *)
Lemma to_s64_z2d z : Z.abs z <= 2 ^ 53 -> to_s64 (z2d z) = Some z.
Proof.
  assert (P : forall n m e, -52 <= e <= 1 -> Z.pos n * 2 ^ 52 = Z.pos m * 2 ^ (e + 52) ->
                (if 0 <=? e then Z.pos m * 2 ^ e else Z.pos m / 2 ^ (- e)) = Z.pos n).
  { intros n m e He V. destruct (Z.leb_spec 0 e) as [H|H].
    - rewrite Z.pow_add_r in V by lia. rewrite Z.mul_assoc in V. apply Z.mul_cancel_r in V; [congruence|vm_compute; congruence].
    - replace 52 with ((- e) + (e + 52)) in V at 1 by lia. rewrite (Z.pow_add_r 2 (- e)) in V by lia. rewrite Z.mul_assoc in V.
      pose proof (Z.pow_pos_nonneg 2 (e + 52)). apply Z.mul_cancel_r in V; [|lia]. rewrite <- V. apply Z.div_mul. pose proof (Z.pow_pos_nonneg 2 (- e)). lia. }
  intros H. destruct z as [|n|n]; cbn [Z.abs] in H; [reflexivity|..].
  - destruct (z2d_pos n H) as (m & e & -> & _ & _ & He & _ & V). unfold to_s64. rewrite (P n m e He V). cbn [cond_Zopp].
    destruct (Z.leb_spec (- 2 ^ 63) (Z.pos n)); [|lia]. destruct (Z.ltb_spec (Z.pos n) (2 ^ 63)); [reflexivity|lia].
  - destruct (z2d_pos n H) as (m & e & _ & -> & _ & He & _ & V). unfold to_s64. rewrite (P n m e He V). cbn [cond_Zopp]. change (- Z.pos n) with (Z.neg n).
    destruct (Z.leb_spec (- 2 ^ 63) (Z.neg n)); [|lia]. destruct (Z.ltb_spec (Z.neg n) (2 ^ 63)); [reflexivity|lia].
Qed.
Lemma z2d_eqb z : Z.abs z <= 2 ^ 53 -> SFeqb (z2d z) (z2d z) = true.
Proof.
  intros H. assert (P : forall s m e, SFeqb (S754_finite s m e) (S754_finite s m e) = true).
  { intros [|] m e; unfold SFeqb, SFcompare; rewrite Z.compare_refl; change (Pcompare m m Eq) with (m ?= m)%positive; rewrite Pos.compare_refl; reflexivity. }
  destruct z as [|n|n]; cbn [Z.abs] in H; [reflexivity|..]; destruct (z2d_pos n H) as (m & e & Ep & En & _); rewrite ?Ep, ?En; apply P.
Qed.
Lemma print_num_z2d z : Z.abs z <= 2 ^ 53 -> print_num (z2d z) = Some (print_int z).
Proof. intros H. unfold print_num. rewrite (to_s64_z2d z H). cbn [obind]. rewrite (z2d_eqb z H). reflexivity. Qed.

(** * The bytes of src/mln_rs.c form a field *)

From Coq Require Import List Arith NArith Lia Bool Ring_theory.
From Coq.Strings Require Import Byte.
Require Import ZifyBool ZifyNat ZifyN.
From Verif Require Import Base Sweep RsModel RsSpec.
Import ListNotations.
Local Open Scope N_scope.

Lemma to_N_lt b : to_N b < 256.
Proof. pose proof (to_N_bounded b). lia. Qed.

Lemma to_N_b8 x : to_N (b8 x) = x mod 256.
Proof.
  unfold b8. assert (H : x mod 256 < 256) by (apply N.mod_lt; discriminate).
  destruct (of_N (x mod 256)) as [b|] eqn:E.
  - apply to_of_N, E.
  - apply of_N_None_iff in E. lia.
Qed.

Lemma to_N_b8_small x : x < 256 -> to_N (b8 x) = x.
Proof. intros H. rewrite to_N_b8. apply N.mod_small, H. Qed.

Lemma b8_to_N b : b8 (to_N b) = b.
Proof. unfold b8. rewrite N.mod_small by apply to_N_lt. rewrite of_to_N. reflexivity. Qed.

Lemma byte_eq a b : to_N a = to_N b -> a = b.
Proof. intros H. rewrite <- (b8_to_N a), <- (b8_to_N b), H. reflexivity. Qed.

Lemma to_N_zero b : to_N b = 0 -> b = x00.
Proof. intros H. apply byte_eq. exact H. Qed.

Lemma zero_spec b : (to_N b =? 0) = true <-> b = x00.
Proof. rewrite N.eqb_eq. split; [apply to_N_zero|intros ->; reflexivity]. Qed.

Lemma nonzero_spec b : b <> x00 -> (to_N b =? 0) = false.
Proof. intros H. destruct (to_N b =? 0) eqn:E; [|reflexivity]. apply zero_spec in E. contradiction. Qed.

(** ** Addition *)

Lemma lxor_lt a b n : a < 2 ^ n -> b < 2 ^ n -> N.lxor a b < 2 ^ n.
Proof.
  intros Ha Hb. destruct (N.eq_dec (N.lxor a b) 0) as [->|Hne]; [lia|].
  apply N.log2_lt_pow2; [lia|]. 
  destruct (N.lt_ge_cases (N.log2 (N.lxor a b)) n) as [H|H]; [exact H|exfalso].
  pose proof (N.bit_log2 _ Hne) as B. rewrite N.lxor_spec in B.
  assert (K : forall c, c < 2 ^ n -> N.testbit c (N.log2 (N.lxor a b)) = false).
  { intros c Hc. destruct (N.eq_dec c 0) as [->|Hc0]; [apply N.bits_0|].
    apply N.bits_above_log2. eapply N.lt_le_trans; [|exact H]. apply N.log2_lt_pow2; lia. }
  rewrite (K a Ha), (K b Hb) in B. discriminate B.
Qed.

Lemma lxor_byte a b : a < 256 -> b < 256 -> N.lxor a b < 256.
Proof. exact (lxor_lt a b 8). Qed.

Lemma to_N_add a b : to_N (gf_add a b) = N.lxor (to_N a) (to_N b).
Proof. unfold gf_add. apply to_N_b8_small, lxor_byte; apply to_N_lt. Qed.

Lemma gf_add_comm a b : gf_add a b = gf_add b a.
Proof. apply byte_eq. rewrite !to_N_add. apply N.lxor_comm. Qed.

Lemma gf_add_assoc a b c : gf_add a (gf_add b c) = gf_add (gf_add a b) c.
Proof. apply byte_eq. rewrite !to_N_add. symmetry. apply N.lxor_assoc. Qed.

Lemma gf_add_0_l a : gf_add x00 a = a.
Proof. apply byte_eq. rewrite to_N_add. apply N.lxor_0_l. Qed.

Lemma gf_add_same a : gf_add a a = x00.
Proof. apply byte_eq. rewrite to_N_add. apply N.lxor_nilpotent. Qed.

(** ** Multiplication by x *)

Definition xt (b : byte) : byte := b8 (times_x (to_N b)).

Lemma times_x_eq a : a < 256 ->
  times_x a = N.lxor (2 * a) (if N.testbit a 7 then 0x12d else 0).
Proof.
  intros H. unfold times_x. rewrite N.testbit_odd, N.shiftr_div_pow2. change (2 ^ 7) with 128.
  destruct (N.ltb_spec a 128) as [Hl|Hl].
  - rewrite N.div_small by exact Hl. cbn [N.odd]. rewrite N.lxor_0_r. reflexivity.
  - replace (a / 128) with 1; [reflexivity|].
    apply (N.div_unique a 128 1 (a - 128)); lia.
Qed.

Lemma times_x_lt a : a < 256 -> times_x a < 256.
Proof.
  intros H. unfold times_x. destruct (N.ltb_spec a 128) as [Hl|Hl]; [lia|].
  assert (E : N.lxor (2 * a) 0x12d = N.lxor (2 * (a - 128)) 0x2d).
  { replace (2 * a) with (N.lxor (2 * (a - 128)) 256).
    - rewrite N.lxor_assoc. reflexivity.
    - symmetry. replace (2 * a) with (2 * (a - 128) + 256) by lia.
      apply N.add_nocarry_lxor. apply N.bits_inj. intros k. rewrite N.land_spec, N.bits_0.
      change 256 with (2 ^ 8). destruct (N.eq_dec k 8) as [->|Hk].
      + rewrite N.testbit_eqb. change (2 ^ 8) with 256. rewrite N.div_small by lia. reflexivity.
      + rewrite N.pow2_bits_false by lia. apply andb_false_r. }
  rewrite E. apply lxor_byte; lia.
Qed.

Lemma to_N_xt b : to_N (xt b) = times_x (to_N b).
Proof. unfold xt. apply to_N_b8_small, times_x_lt, to_N_lt. Qed.

Lemma times_x_add a b : a < 256 -> b < 256 ->
  times_x (N.lxor a b) = N.lxor (times_x a) (times_x b).
Proof.
  intros Ha Hb. rewrite !times_x_eq by (try apply lxor_byte; assumption).
  rewrite N.lxor_spec. replace (2 * N.lxor a b) with (N.lxor (2 * a) (2 * b)).
  2:{ apply N.bits_inj. intros k. destruct (N.eq_dec k 0) as [->|Hk].
      - rewrite N.lxor_spec, !N.testbit_even_0. reflexivity.
      - replace k with (N.succ (N.pred k)) by lia.
        rewrite N.lxor_spec, !N.testbit_even_succ, N.lxor_spec by lia. reflexivity. }
  destruct (N.testbit a 7), (N.testbit b 7); cbn [xorb]; apply N.bits_inj; intros k;
    rewrite !N.lxor_spec, ?N.bits_0; destruct (N.testbit (2 * a) k), (N.testbit (2 * b) k);
    try reflexivity; destruct (N.testbit 0x12d k); reflexivity.
Qed.

Lemma xt_add a b : xt (gf_add a b) = gf_add (xt a) (xt b).
Proof.
  apply byte_eq. rewrite to_N_add, !to_N_xt, to_N_add. apply times_x_add; apply to_N_lt.
Qed.

Fixpoint xts (j : nat) (a : byte) : byte :=
  match j with O => a | S j' => xt (xts j' a) end.

Lemma xts_add j a b : xts j (gf_add a b) = gf_add (xts j a) (xts j b).
Proof. induction j; cbn [xts]; [reflexivity|]. rewrite IHj. apply xt_add. Qed.

Lemma xts_zero j : xts j x00 = x00.
Proof. induction j; cbn [xts]; [reflexivity|]. rewrite IHj. reflexivity. Qed.

(** ** The tables *)

Definition ilog_ok (i : N) : bool :=
  (0 <? ilog_at i) && (ilog_at i <? 256) && (log_at (b8 (ilog_at i)) =? i)
  && (times_x (ilog_at i) =? ilog_at ((i + 1) mod 255)).

Lemma ilog_all i : i < 255 -> ilog_ok i = true.
Proof. apply (sweep1 255 ilog_ok). vm_compute. reflexivity. Qed.

Definition log_ok (x : N) : bool :=
  (x =? 0) || ((log_at (b8 x) <? 255) && (ilog_at (log_at (b8 x)) =? x)).

Lemma log_all x : x < 256 -> log_ok x = true.
Proof. apply (sweep1 256 log_ok). vm_compute. reflexivity. Qed.

Lemma ilog_range i : i < 255 -> 0 < ilog_at i < 256.
Proof. intros H. apply ilog_all in H. unfold ilog_ok in H. lia. Qed.

Lemma log_ilog i : i < 255 -> log_at (b8 (ilog_at i)) = i.
Proof. intros H. apply ilog_all in H. unfold ilog_ok in H. lia. Qed.

Lemma ilog_next i : i < 255 -> times_x (ilog_at i) = ilog_at ((i + 1) mod 255).
Proof. intros H. apply ilog_all in H. unfold ilog_ok in H. lia. Qed.

Lemma log_range b : b <> x00 -> log_at b < 255.
Proof.
  intros H. pose proof (log_all (to_N b) (to_N_lt b)) as L. unfold log_ok in L.
  rewrite b8_to_N, nonzero_spec in L by exact H. lia.
Qed.

Lemma ilog_log b : b <> x00 -> ilog_at (log_at b) = to_N b.
Proof.
  intros H. pose proof (log_all (to_N b) (to_N_lt b)) as L. unfold log_ok in L.
  rewrite b8_to_N, nonzero_spec in L by exact H. lia.
Qed.

(** The generator to the power [i]. *)
Definition g (i : N) : byte := b8 (ilog_at (i mod 255)).

Lemma mod255 i : i mod 255 < 255.
Proof. apply N.mod_lt. discriminate. Qed.

Lemma g_nonzero i : g i <> x00.
Proof.
  intros E. apply (f_equal to_N) in E. unfold g in E.
  pose proof (ilog_range _ (mod255 i)). rewrite to_N_b8_small in E by lia.
  change (to_N x00) with 0 in E. lia.
Qed.

Lemma log_g i : log_at (g i) = i mod 255.
Proof. unfold g. apply log_ilog, mod255. Qed.

Lemma g_log b : b <> x00 -> g (log_at b) = b.
Proof.
  intros H. unfold g. rewrite N.mod_small by apply log_range, H.
  rewrite ilog_log by exact H. apply b8_to_N.
Qed.

Lemma g_ex b : b <> x00 -> exists i, b = g i /\ i < 255.
Proof. intros H. exists (log_at b). split; [symmetry; apply g_log, H|apply log_range, H]. Qed.

Lemma g_mod i j : i mod 255 = j mod 255 -> g i = g j.
Proof. intros H. unfold g. rewrite H. reflexivity. Qed.

Lemma g_mul i j : gf_mul (g i) (g j) = g (i + j).
Proof.
  unfold gf_mul. rewrite !nonzero_spec by apply g_nonzero. cbn [orb].
  rewrite !log_g. unfold g. do 2 f_equal. rewrite <- N.add_mod by discriminate. reflexivity.
Qed.

Lemma gf_mul_0_l a : gf_mul x00 a = x00.
Proof. reflexivity. Qed.

Lemma gf_mul_0_r a : gf_mul a x00 = x00.
Proof. unfold gf_mul. change (to_N x00 =? 0) with true. rewrite orb_true_r. reflexivity. Qed.

Ltac zcase a := let E := fresh in
  destruct (to_N a =? 0) eqn:E;
  [apply zero_spec in E; subst a
  |let H := fresh in assert (H : a <> x00) by (intros ->; discriminate E);
   apply g_ex in H; destruct H as (? & -> & ?); clear E].

Lemma gf_mul_comm a b : gf_mul a b = gf_mul b a.
Proof.
  zcase a; [rewrite gf_mul_0_r; reflexivity|]. zcase b; [rewrite gf_mul_0_r; reflexivity|].
  rewrite !g_mul. f_equal. apply N.add_comm.
Qed.

Lemma gf_mul_assoc a b c : gf_mul a (gf_mul b c) = gf_mul (gf_mul a b) c.
Proof.
  zcase a; [reflexivity|]. zcase b; [rewrite gf_mul_0_l, !gf_mul_0_r; reflexivity|].
  zcase c; [rewrite !gf_mul_0_r; reflexivity|].
  rewrite !g_mul. f_equal. apply N.add_assoc.
Qed.

Lemma gf_mul_1_l a : gf_mul x01 a = a.
Proof.
  zcase a; [reflexivity|]. change x01 with (g 0). rewrite g_mul. reflexivity.
Qed.

Lemma xt_g i : xt (g i) = g (i + 1).
Proof.
  apply byte_eq. rewrite to_N_xt. unfold g.
  pose proof (ilog_range _ (mod255 i)). pose proof (ilog_range _ (mod255 (i + 1))).
  rewrite !to_N_b8_small by lia. rewrite ilog_next by apply mod255.
  f_equal. rewrite N.add_mod_idemp_l by discriminate. reflexivity.
Qed.

Lemma mul_xts a j : gf_mul a (g (N.of_nat j)) = xts j a.
Proof.
  zcase a; [rewrite xts_zero; reflexivity|]. rewrite g_mul.
  induction j as [|j IH]; cbn [xts].
  - rewrite N.add_0_r. reflexivity.
  - rewrite <- IH, xt_g. f_equal. lia.
Qed.

Lemma gf_distr a b c : gf_mul (gf_add a b) c = gf_add (gf_mul a c) (gf_mul b c).
Proof.
  destruct (to_N c =? 0) eqn:E.
  - apply zero_spec in E. subst c. rewrite !gf_mul_0_r. reflexivity.
  - assert (H : c <> x00) by (intros ->; discriminate E).
    apply g_ex in H. destruct H as (i & -> & _). rewrite <- (N2Nat.id i).
    rewrite !mul_xts. apply xts_add.
Qed.

Lemma gf_ring : ring_theory x00 x01 gf_add gf_mul gf_add (fun x => x) (@eq byte).
Proof.
  constructor.
  - exact gf_add_0_l.
  - exact gf_add_comm.
  - exact gf_add_assoc.
  - exact gf_mul_1_l.
  - exact gf_mul_comm.
  - exact gf_mul_assoc.
  - exact gf_distr.
  - reflexivity.
  - exact gf_add_same.
Qed.

(** ** Division *)

Lemma gf_div_0_r a : gf_div a x00 = x00.
Proof. unfold gf_div. change (to_N x00 =? 0) with true. rewrite orb_true_r. reflexivity. Qed.

Lemma g_div i j : i < 255 -> j < 255 -> gf_div (g i) (g j) = g (i + (255 - j)).
Proof.
  intros Hi Hj. unfold gf_div. rewrite !nonzero_spec by apply g_nonzero. cbn [orb].
  rewrite !log_g, !N.mod_small by assumption. unfold g. do 2 f_equal.
  destruct (N.ltb_spec i j).
  - rewrite N.mod_small by lia. lia.
  - replace (i + (255 - j)) with ((i - j) + 1 * 255) by lia.
    rewrite N.mod_add, N.mod_small by lia. reflexivity.
Qed.

Lemma gf_div_mul x y : gf_div x y = gf_mul x (gf_div x01 y).
Proof.
  zcase y; [rewrite !gf_div_0_r, gf_mul_0_r; reflexivity|].
  zcase x; [reflexivity|]. change x01 with (g 0). rewrite !g_div by lia.
  rewrite g_mul. reflexivity.
Qed.

Lemma gf_div_one y : y <> x00 -> gf_mul (gf_div x01 y) y = x01.
Proof.
  intros H. apply g_ex in H. destruct H as (i & -> & Hi). change x01 with (g 0) at 1.
  rewrite g_div by lia. rewrite g_mul. change x01 with (g 0). apply g_mod.
  replace (0 + (255 - i) + i) with 255 by lia. reflexivity.
Qed.

Lemma gf_tiny_ne x : gf_tiny x = false -> x <> x00.
Proof. intros H ->. discriminate H. Qed.

Lemma gf_tiny_zero x : gf_tiny x = true -> x = x00.
Proof. apply zero_spec. Qed.

Lemma gf_better_nonzero y x : gf_better y x = true -> y <> x00.
Proof. intros H ->. unfold gf_better in H. change (to_N x00) with 0 in H. lia. Qed.

Lemma gf_better_zero y : gf_better y x00 = false -> y = x00.
Proof. intros H. unfold gf_better in H. change (to_N x00) with 0 in H. apply to_N_zero. lia. Qed.

Lemma gf_integral a b : gf_mul a b = x00 -> a = x00 \/ b = x00.
Proof.
  intros H. zcase a; [left; reflexivity|]. zcase b; [right; reflexivity|].
  rewrite g_mul in H. exfalso. exact (g_nonzero _ H).
Qed.

(** ** The product is that of polynomials *)

Lemma poly_times_lt n a b : a < 256 -> poly_times n a b < 256.
Proof.
  revert a b. induction n; intros a b H; cbn [poly_times]; [lia|].
  apply lxor_byte; [destruct (N.odd b); lia|]. apply IHn, times_x_lt, H.
Qed.

Lemma poly_times_mul n a b : b < 2 ^ N.of_nat n -> b < 256 ->
  poly_times n (to_N a) b = to_N (gf_mul a (b8 b)).
Proof.
  revert a b. induction n as [|n IH]; intros a b Hb H8.
  - cbn in Hb. replace b with 0 by lia. change (b8 0) with x00. rewrite gf_mul_0_r. reflexivity.
  - cbn [poly_times]. rewrite <- to_N_xt.
    assert (Hd : 2 * N.div2 b <= b) by (rewrite N.div2_div; pose proof (N.mul_div_le b 2); lia).
    rewrite IH; [|rewrite Nat2N.inj_succ, N.pow_succ_r' in Hb; lia|lia].
    set (q := N.div2 b) in *.
    assert (Eb : b8 b = gf_add (if N.odd b then x01 else x00) (xt (b8 q))).
    { apply byte_eq. rewrite to_N_add, to_N_xt, !to_N_b8_small by lia.
      assert (Hq : b = 2 * q + N.b2n (N.odd b)) by apply N.div2_odd.
      unfold times_x. destruct (N.ltb_spec q 128); [|lia].
      rewrite Hq at 1. destruct (N.odd b); cbn [N.b2n].
      - change (to_N x01) with 1. rewrite N.lxor_comm. 
        apply N.add_nocarry_lxor. apply N.bits_inj. intros k. rewrite N.land_spec, N.bits_0.
        destruct (N.eq_dec k 0) as [->|Hk]; [rewrite N.testbit_even_0; reflexivity|].
        replace (N.testbit 1 k) with false; [apply andb_false_r|].
        change 1 with (2 ^ 0). rewrite N.pow2_bits_false by lia. reflexivity.
      - change (to_N x00) with 0. rewrite N.lxor_0_l. lia. }
    rewrite Eb. rewrite (gf_mul_comm a (gf_add _ _)), gf_distr, to_N_add.
    assert (Ex : gf_mul (xt a) (b8 q) = gf_mul (xt (b8 q)) a).
    { assert (X : forall c, xt c = gf_mul c (g 1)) by (intros c; symmetry; apply (mul_xts c 1)).
      rewrite !X. rewrite <- gf_mul_assoc, (gf_mul_comm (g 1)), gf_mul_assoc, <- (gf_mul_comm (b8 q) a).
      rewrite <- gf_mul_assoc, (gf_mul_comm a), gf_mul_assoc. reflexivity. }
    rewrite Ex. f_equal.
    destruct (N.odd b); [rewrite gf_mul_1_l; reflexivity|reflexivity].
Qed.

Lemma gf_mul_times a b : to_N (gf_mul a b) = times (to_N a) (to_N b).
Proof.
  unfold times. rewrite poly_times_mul by apply to_N_lt. rewrite b8_to_N. reflexivity.
Qed.

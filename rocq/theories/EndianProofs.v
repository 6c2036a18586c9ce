Require Import List Arith NArith Lia Bool.
Require Import ZifyBool ZifyNat ZifyN.
Require Import Verif.Base Verif.EndianModel Verif.EndianSpec.
Import ListNotations.
Open Scope N_scope.

Lemma pow256 k : 256 ^ k = 2 ^ (8 * k).
Proof. rewrite N.pow_mul_r. reflexivity. Qed.

Lemma be_value_bound l : bytes l -> be_value l < 256 ^ N.of_nat (length l).
Proof.
  induction 1 as [|b t Hb Ht IH]; [reflexivity|]. cbn [be_value length].
  rewrite Nat2N.inj_succ, N.pow_succ_r'. unfold is_byte in Hb. nia.
Qed.

(** The bytes the encoder writes. *)
Fixpoint be_bytes (k : nat) (n : N) : list N :=
  match k with O => [] | S k' => (n / 256 ^ N.of_nat k') mod 256 :: be_bytes k' n end.
Lemma be_bytes_length k n : length (be_bytes k n) = k.
Proof. induction k; cbn; auto. Qed.
Lemma be_bytes_bytes k n : bytes (be_bytes k n).
Proof. induction k; cbn; constructor; auto. unfold is_byte. apply N.mod_lt. lia. Qed.

Lemma be_value_bytes k n : be_value (be_bytes k n) = n mod 256 ^ N.of_nat k.
Proof.
  induction k as [|k IH]; [cbn; now rewrite N.mod_1_r|].
  cbn [be_bytes be_value]. rewrite IH, be_bytes_length, Nat2N.inj_succ, N.pow_succ_r'.
  assert (H : 256 ^ N.of_nat k <> 0) by (apply N.pow_nonzero; lia).
  rewrite (N.mul_comm 256), N.mod_mul_r by (auto; lia). lia.
Qed.

Lemma shr_byte n k : 8 * N.of_nat k < 64 -> n < 2^64 ->
  shr64 n (8 * N.of_nat k) = Some (n / 256 ^ N.of_nat k).
Proof.
  intros H Hn. unfold shr64. destruct (N.ltb_spec (8 * N.of_nat k) 64); [|lia].
  rewrite (N.mod_small n) by auto. rewrite N.shiftr_div_pow2, pow256. reflexivity.
Qed.

Lemma land255 x : N.land x 255 = x mod 256.
Proof. change 255 with (N.ones 8). rewrite N.land_ones. reflexivity. Qed.

Lemma encode_ok k n : (k <= 8)%nat -> n < 2^64 -> forall buf rest, length buf = k ->
  be_encode k n (buf ++ rest) = Some (be_bytes k n, rest).
Proof.
  intros Hk Hn. induction k as [|k IH]; intros buf rest Hl.
  - destruct buf; [reflexivity|discriminate].
  - destruct buf as [|b buf]; [discriminate|]. cbn [be_encode be_bytes app].
    rewrite shr_byte by (auto; lia). cbn [obind]. rewrite IH by (cbn in Hl; lia). cbn [obind fst snd].
    rewrite land255. reflexivity.
Qed.

Lemma lor_add a b k : b < 2^k -> a mod 2^k = 0 -> N.lor a b = a + b.
Proof.
  intros Hb Ha. assert (Hp : 2 ^ k <> 0) by (apply N.pow_nonzero; lia).
  rewrite (N.div_mod a (2^k)) by auto. rewrite Ha, N.add_0_r.
  rewrite (N.mul_comm (2^k)), <- N.shiftl_mul_pow2.
  apply N.bits_inj. intros i.
  assert (E : N.land (N.shiftl (a / 2^k) k) b = 0).
  { apply N.bits_inj. intros j. rewrite N.land_spec, N.bits_0.
    destruct (N.lt_ge_cases j k) as [Hj|Hj].
    - rewrite N.shiftl_spec_low by auto. reflexivity.
    - replace (N.testbit b j) with false; [apply andb_false_r|]. symmetry.
      destruct (N.eq_dec b 0) as [->|Hb0]; [apply N.bits_0|].
      apply N.bits_above_log2. apply N.log2_lt_pow2; [lia|].
      eapply N.lt_le_trans; [exact Hb|]. apply N.pow_le_mono_r; lia. }
  rewrite <- N.lxor_lor by exact E. rewrite <- N.add_nocarry_lxor by exact E. reflexivity.
Qed.

Lemma mod_pow_split acc b k : acc mod 256 ^ N.of_nat (S k) = 0 -> (acc + b * 256 ^ N.of_nat k) mod 256 ^ N.of_nat k = 0.
Proof.
  intros H. assert (Hp : 256 ^ N.of_nat k <> 0) by (apply N.pow_nonzero; lia).
  rewrite N.mod_add by auto. rewrite Nat2N.inj_succ, N.pow_succ_r', (N.mul_comm 256) in H.
  rewrite N.mod_mul_r in H by (auto; lia). apply N.eq_add_0 in H. tauto.
Qed.

Lemma decode_ok w : forall l k acc rest, length l = k -> (k <= 8)%nat -> bytes l ->
  acc mod 256 ^ N.of_nat k = 0 -> acc + be_value l < 2^w -> acc + be_value l < 2 ^ 64 ->
  be_decode k w acc (l ++ rest) = Some (acc + be_value l, rest).
Proof.
  induction l as [|b l IH]; intros k acc rest Hl Hk Hb Ha Hw H64.
  - cbn in Hl. subst k. cbn. now rewrite N.add_0_r.
  - destruct k as [|k]; [discriminate|]. cbn [length] in Hl. injection Hl as Hl. inversion Hb as [|? ? Hb1 Hb2]; subst.
    cbn [be_decode app]. rewrite land255. unfold is_byte in Hb1. rewrite N.mod_small by auto.
    unfold shl64. destruct (N.ltb_spec (8 * N.of_nat (length l)) 64); [|lia]. cbn [obind].
    rewrite N.shiftl_mul_pow2, <- pow256. cbn [be_value] in *.
    rewrite (N.mod_small (b * _)) by lia.
    rewrite (lor_add acc _ (8 * N.of_nat (S (length l)))).
    + rewrite N.mod_small by lia. rewrite (IH (length l)); auto; try lia.
      * rewrite N.add_assoc. reflexivity.
      * apply mod_pow_split. exact Ha.
    + rewrite <- pow256. rewrite Nat2N.inj_succ, N.pow_succ_r'.
      apply N.mul_lt_mono_pos_r; [|exact Hb1]. apply N.neq_0_lt_0. apply N.pow_nonzero. lia.
    + rewrite <- pow256. exact Ha.
Qed.

Lemma decode_bytes w l rest : bytes l -> (length l <= 8)%nat -> be_value l < 2^w ->
  be_decode (length l) w 0 (l ++ rest) = Some (be_value l, rest).
Proof.
  intros Hb Hl Hw. rewrite (decode_ok w l (length l) 0 rest); auto.
  - pose proof (be_value_bound l Hb) as B. rewrite N.add_0_l. eapply N.lt_le_trans; [exact B|].
    change (2^64) with (256^8). apply N.pow_le_mono_r; lia.
Qed.

Lemma encode_value k n buf rest : (k <= 8)%nat -> n < 2^64 -> length buf = k ->
  exists out, be_encode k n (buf ++ rest) = Some (out, rest) /\ length out = k /\ bytes out /\ be_value out = n mod 256 ^ N.of_nat k.
Proof.
  intros Hk Hn Hl. exists (be_bytes k n). rewrite encode_ok by auto.
  repeat split; auto using be_bytes_length, be_bytes_bytes, be_value_bytes.
Qed.

Lemma endian_round_trip k n w buf rest : (k <= 8)%nat -> n < 2^64 -> n < 256 ^ N.of_nat k -> n < 2^w -> length buf = k ->
  exists out, be_encode k n (buf ++ rest) = Some (out, rest) /\ length out = k /\ be_decode k w 0 (out ++ rest) = Some (n, rest).
Proof.
  intros Hk H64 Hn Hw Hl. destruct (encode_value k n buf rest Hk H64 Hl) as (out & E & L & B & V).
  rewrite N.mod_small in V by auto. exists out. split; auto. split; auto.
  rewrite <- L. rewrite decode_bytes; auto; try lia; congruence.
Qed.

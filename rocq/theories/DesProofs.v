Require Import List Arith NArith Bool Lia.
Require Import ZifyBool ZifyNat ZifyN.
Require Import Verif.Base Verif.Sweep Verif.DesModel Verif.DesSpec.
Import ListNotations.
Open Scope N_scope.

(** ** Lists of bits *)
Lemma bits_length n x : length (bits n x) = n.
Proof. induction n; cbn [bits length]; [|rewrite IHn]; reflexivity. Qed.
Lemma bits_ext n x y : (forall k, k < N.of_nat n -> N.testbit x k = N.testbit y k) -> bits n x = bits n y.
Proof. induction n as [|n IH]; intros H; [reflexivity|]. cbn [bits]. f_equal; [apply H; lia|]. apply IH. intros k Hk. apply H. lia. Qed.
Lemma bits_eq n x y : bits n x = bits n y -> forall k, k < N.of_nat n -> N.testbit x k = N.testbit y k.
Proof.
  induction n as [|n IH]; intros H k Hk; [lia|]. cbn [bits] in H. injection H as H1 H2.
  destruct (N.eq_dec k (N.of_nat n)) as [->|]; [exact H1|]. apply IH; [exact H2|lia].
Qed.
Lemma high_bits n x : x < 2 ^ n -> forall k, n <= k -> N.testbit x k = false.
Proof.
  intros H k Hk. destruct (N.eq_dec x 0) as [->|Hx]; [apply N.bits_0|]. apply N.bits_above_log2.
  apply N.lt_le_trans with n; [|exact Hk]. apply N.log2_lt_pow2; lia.
Qed.
Lemma lt_high x n : (forall k, n <= k -> N.testbit x k = false) -> x < 2 ^ n.
Proof.
  intros H. destruct (N.eq_dec x 0) as [->|Hx]; [apply N.neq_0_lt_0; apply N.pow_nonzero; lia|].
  apply N.log2_lt_pow2; [lia|]. destruct (N.lt_ge_cases (N.log2 x) n) as [L|L]; [exact L|].
  specialize (H _ L). rewrite N.bit_log2 in H by exact Hx. discriminate.
Qed.
Lemma bits_inj n x y : x < 2 ^ N.of_nat n -> y < 2 ^ N.of_nat n -> bits n x = bits n y -> x = y.
Proof.
  intros Hx Hy E. apply N.bits_inj. intros k. destruct (N.lt_ge_cases k (N.of_nat n)) as [L|L]; [apply (bits_eq _ _ _ E); exact L|].
  rewrite (high_bits _ _ Hx), (high_bits _ _ Hy) by exact L. reflexivity.
Qed.
Lemma bits_app a b x : bits (a + b) x = bits a (N.shiftr x (N.of_nat b)) ++ bits b x.
Proof.
  induction a as [|a IH]; [reflexivity|]. cbn [Nat.add bits app]. rewrite IH. f_equal. rewrite N.shiftr_spec by lia. f_equal. lia.
Qed.
Lemma bits_nth n x i : (i < n)%nat -> nth i (bits n x) false = N.testbit x (N.of_nat (n - 1 - i)).
Proof.
  revert i. induction n as [|n IH]; intros i H; [lia|]. cbn [bits]. destruct i as [|i]; cbn [nth]; [f_equal; lia|]. rewrite IH by lia. f_equal. lia.
Qed.
Lemma bits_lxor n x y : bits n (N.lxor x y) = xor_bits (bits n x) (bits n y).
Proof. induction n as [|n IH]; [reflexivity|]. cbn [bits xor_bits]. rewrite N.lxor_spec, IH. reflexivity. Qed.
Lemma bits_mask n x : bits n (N.land x (N.ones (N.of_nat n))) = bits n x.
Proof. apply bits_ext. intros k Hk. rewrite N.land_spec, N.ones_spec_low by lia. apply andb_true_r. Qed.
Lemma mask_lt n x : N.land x (N.ones n) < 2 ^ n.
Proof. rewrite N.land_ones. apply N.mod_lt. apply N.pow_nonzero. lia. Qed.
Lemma mask_id n x : x < 2 ^ n -> N.land x (N.ones n) = x.
Proof. intros H. rewrite N.land_ones. apply N.mod_small. exact H. Qed.
Lemma bits_mask_low m n x : (m <= n)%nat -> bits m (N.land x (N.ones (N.of_nat n))) = bits m x.
Proof. intros H. apply bits_ext. intros k Hk. rewrite N.land_spec, N.ones_spec_low by lia. apply andb_true_r. Qed.

Lemma firstn_bits n x l : firstn n (bits n x ++ l) = bits n x.
Proof. rewrite firstn_app, bits_length, Nat.sub_diag, firstn_O, app_nil_r. apply firstn_all2. rewrite bits_length. lia. Qed.
Lemma skipn_bits n x l : skipn n (bits n x ++ l) = l.
Proof. rewrite skipn_app, bits_length, Nat.sub_diag, skipn_all2 by (rewrite bits_length; lia). reflexivity. Qed.
Lemma nth_select t bs : forall i, (i < length t)%nat -> nth i (select t bs) false = nth (nth i t 0%nat - 1) bs false.
Proof. induction t as [|a t IH]; intros i H; cbn [length] in H; [lia|]. destruct i as [|i]; [reflexivity|]. apply IH. lia. Qed.

(** ** Permutations *)
Lemma bit_one x s : N.land (N.shiftr x s) 1 = N.b2n (N.testbit x s).
Proof. change 1 with (N.ones 1). rewrite N.land_ones. change (2 ^ 1) with 2. rewrite <- N.bit0_mod, N.shiftr_spec by lia. f_equal. Qed.
Lemma b2n_bit b k : N.testbit (N.b2n b) k = (k =? 0) && b.
Proof. destruct b; [|rewrite N.bits_0, andb_false_r; reflexivity]. cbn [N.b2n]. rewrite andb_true_r. destruct k; [reflexivity|]. rewrite (high_bits 1); [reflexivity|reflexivity|lia]. Qed.
Lemma shifted_bit b i k : N.testbit (N.shiftl (N.b2n b) i) k = (k =? i) && b.
Proof.
  destruct (N.lt_ge_cases k i) as [L|L]; [rewrite N.shiftl_spec_low by exact L; replace (k =? i) with false by lia; reflexivity|].
  rewrite N.shiftl_spec_high by lia. rewrite b2n_bit. f_equal. lia.
Qed.
Lemma permute_high win t x k : N.of_nat (length t) <= k -> N.testbit (permute win t x) k = false.
Proof.
  induction t as [|s t IH]; cbn [permute length]; intros H; [apply N.bits_0|]. rewrite N.lor_spec, IH, bit_one, shifted_bit by lia.
  replace (k =? N.of_nat (length t)) with false by lia. reflexivity.
Qed.
Lemma permute_bits win t x : bits (length t) (permute win t x) = map (fun s => N.testbit x (win - 1 - s)) t.
Proof.
  induction t as [|s t IH]; [reflexivity|]. cbn [length bits map permute]. f_equal.
  - rewrite N.lor_spec, permute_high, bit_one, shifted_bit by lia. rewrite N.eqb_refl, orb_false_r. reflexivity.
  - rewrite <- IH. apply bits_ext. intros k Hk. rewrite N.lor_spec, bit_one, shifted_bit. replace (k =? N.of_nat (length t)) with false by lia. reflexivity.
Qed.
Lemma permute_select win t x T : forallb (fun s => s <? N.of_nat win) t = true -> map (fun s => S (N.to_nat s)) t = T ->
  bits (length t) (permute (N.of_nat win) t x) = select T (bits win x).
Proof.
  intros F <-. rewrite permute_bits. unfold select. rewrite map_map. apply map_ext_in. intros s Hs.
  rewrite forallb_forall in F. specialize (F s Hs). rewrite bits_nth by lia. f_equal. lia.
Qed.
Lemma permute_up_bit x : forall t i k, N.testbit (permute_up i t x) k = (i <=? k) && (k <? i + N.of_nat (length t)) && N.testbit x (nth (N.to_nat (k - i)) t 0).
Proof.
  induction t as [|s t IH]; intros i k; cbn [permute_up length].
  - rewrite N.bits_0. destruct (N.leb_spec i k), (N.ltb_spec k (i + 0)); try reflexivity; lia.
  - rewrite N.lor_spec, bit_one, shifted_bit, IH. destruct (N.eqb_spec k i) as [->|Hn].
    + rewrite N.sub_diag. replace (i + 1 <=? i) with false by lia. cbn [andb nth N.to_nat]. rewrite orb_false_r. replace (i <=? i) with true by lia. replace (i <? i + N.of_nat (S (length t))) with true by lia. reflexivity.
    + cbn [andb orb]. destruct (N.ltb_spec k i) as [L|L].
      * replace (i + 1 <=? k) with false by lia. replace (i <=? k) with false by lia. reflexivity.
      * replace (i + 1 <=? k) with true by lia. replace (i <=? k) with true by lia. cbn [andb]. replace (N.to_nat (k - i)) with (S (N.to_nat (k - (i + 1)))) by lia. cbn [nth].
        f_equal. lia.
Qed.

Lemma begin_bits x : bits 64 (begin_permute x) = select IP (bits 64 x).
Proof. apply (permute_select 64 begin_permutation); reflexivity. Qed.
Lemma extension_bits x : bits 48 (extension_permute x) = select E (bits 32 x).
Proof. unfold extension_permute. change mask48 with (N.ones (N.of_nat 48)). rewrite bits_mask. apply (permute_select 32 extension_permutation); reflexivity. Qed.
Lemma p_bits x : bits 32 (p_permute x) = select P (bits 32 x).
Proof. unfold p_permute. change mask32 with (N.ones (N.of_nat 32)). rewrite bits_mask. apply (permute_select 32 p_permutation); reflexivity. Qed.
Lemma pc1_bits x : bits 56 (permute 64 key_permutation x) = select PC1 (bits 64 x).
Proof. apply (permute_select 64 key_permutation); reflexivity. Qed.
Lemma pc2_bits x : bits 48 (N.land (permute 56 compression_permutation x) mask48) = select PC2 (bits 56 x).
Proof. change mask48 with (N.ones (N.of_nat 48)). rewrite bits_mask. apply (permute_select 56 compression_permutation); reflexivity. Qed.
Lemma final_bits x : bits 64 (final_permute x) = select FP (bits 64 x).
Proof.
  apply nth_ext with (d := false) (d' := false); [rewrite bits_length; reflexivity|]. rewrite bits_length. intros i Hi. rewrite bits_nth by lia.
  unfold final_permute. rewrite permute_up_bit. change (length final_permutation) with 64%nat.
  replace (0 <=? N.of_nat (64 - 1 - i)) with true by lia. replace (N.of_nat (64 - 1 - i) <? 0 + N.of_nat 64) with true by lia. cbn [andb].
  rewrite N.sub_0_r, Nat2N.id. rewrite nth_select by exact Hi.
  assert (T : forall i, (i < 64)%nat -> nth (64 - 1 - i) final_permutation 0 = N.of_nat (64 - nth i FP 0%nat) /\ (1 <= nth i FP 0 <= 64)%nat).
  { intros j Hj. assert (F : forallb (fun j => (nth (64 - 1 - j) final_permutation 0 =? N.of_nat (64 - nth j FP 0%nat)) && (1 <=? nth j FP 0)%nat && (nth j FP 0 <=? 64)%nat) (seq 0 64) = true) by (vm_compute; reflexivity).
    rewrite forallb_forall in F. specialize (F j ltac:(apply in_seq; lia)). lia. }
  destruct (T i Hi) as [-> R]. rewrite bits_nth by lia. f_equal. lia.
Qed.

(** ** Substitution *)
Lemma box_index_ok v : v < 64 -> forall t, bits 4 (nth (N.to_nat (box_index v)) t 0) = substitute t (bits 6 v).
Proof.
  intros H t.
  assert (F : forallb (fun v => (N.to_nat (box_index v) =? (2 * b2n (N.testbit v (N.of_nat 5)) + b2n (N.testbit v (N.of_nat 0))) * 16 +
     (8 * b2n (N.testbit v (N.of_nat 4)) + 4 * b2n (N.testbit v (N.of_nat 3)) + 2 * b2n (N.testbit v (N.of_nat 2)) + b2n (N.testbit v (N.of_nat 1))))%nat) (map N.of_nat (seq 0 64)) = true) by (vm_compute; reflexivity).
  rewrite forallb_forall in F. specialize (F v). apply Nat.eqb_eq in F; [rewrite F; reflexivity|]. apply in_map_iff. exists (N.to_nat v). split; [lia|]. apply in_seq. lia.
Qed.
Lemma s_loop_high ts x k : 4 * N.of_nat (length ts) <= k -> N.testbit (s_loop ts x) k = false.
Proof.
  induction ts as [|t ts IH]; cbn [s_loop length]; intros H; [apply N.bits_0|]. rewrite N.lor_spec, IH by lia. rewrite orb_false_r.
  rewrite N.shiftl_spec_high by lia. apply (high_bits 4); [|lia]. change 15 with (N.ones 4). apply mask_lt.
Qed.
Lemma s_loop_bits : forall ts x, bits (4 * length ts) (s_loop ts x) = substitute_all ts (bits (6 * length ts) x).
Proof.
  induction ts as [|t ts IH]; intros x; [reflexivity|]. cbn [length substitute_all s_loop].
  replace (4 * S (length ts))%nat with (4 + 4 * length ts)%nat by lia. replace (6 * S (length ts))%nat with (6 + 6 * length ts)%nat by lia. rewrite !bits_app.
  rewrite firstn_bits, skipn_bits. f_equal.
  - set (v := N.land (N.shiftr x (6 * N.of_nat (length ts))) 63).
    assert (V : bits 6 (N.shiftr x (N.of_nat (6 * length ts))) = bits 6 v) by (unfold v; change 63 with (N.ones (N.of_nat 6)); rewrite bits_mask; do 2 f_equal; lia).
    rewrite V, <- box_index_ok by (unfold v; change 63 with (N.ones 6); apply mask_lt).
    transitivity (bits 4 (N.land (nth (N.to_nat (box_index v)) t 0) (N.ones (N.of_nat 4)))); [|apply bits_mask]. apply bits_ext. intros k Hk.
    rewrite N.shiftr_spec by lia. rewrite N.lor_spec, s_loop_high by lia. rewrite orb_false_r, N.shiftl_spec_high by lia. f_equal. lia.
  - rewrite <- IH. apply bits_ext. intros k Hk. rewrite N.lor_spec. rewrite N.shiftl_spec_low by lia. reflexivity.
Qed.
Lemma s_bits x : bits 32 (s_permute x) = substitute_all Sboxes (bits 48 x).
Proof. unfold s_permute. change mask32 with (N.ones (N.of_nat 32)). rewrite bits_mask. apply (s_loop_bits s_box). Qed.

(** ** Keys *)
Lemma rol_bits x n : x < 2 ^ 28 -> (n <= 28)%nat -> bits 28 (rol28 x (N.of_nat n)) = rotate n (bits 28 x).
Proof.
  intros Hx Hn. unfold rol28. change mask28 with (N.ones (N.of_nat 28)). rewrite bits_mask. unfold rotate.
  assert (A : bits 28 x = bits n (N.shiftr x (N.of_nat (28 - n))) ++ bits (28 - n) x) by (rewrite <- bits_app; f_equal; lia).
  rewrite A, firstn_bits, skipn_bits.
  set (y := N.lor _ _). replace 28%nat with ((28 - n) + n)%nat at 1 by lia. rewrite bits_app. unfold y. clear y A. f_equal; apply bits_ext; intros k Hk.
  - rewrite N.shiftr_spec, N.lor_spec, N.shiftr_spec by lia. rewrite (high_bits 28 x Hx (k + N.of_nat n + (28 - N.of_nat n))) by lia. rewrite N.shiftl_spec_high by lia.
    cbn [orb]. f_equal. lia.
  - rewrite N.lor_spec, N.shiftl_spec_low by lia. rewrite orb_false_r, !N.shiftr_spec by lia. f_equal. lia.
Qed.
Lemma key_loop_bits : forall ms x, forallb (fun m => m <=? 28) ms = true ->
  map (bits 48) (key_loop ms x) = schedule (map N.to_nat ms) (bits 28 (N.shiftr x 28)) (bits 28 x).
Proof.
  induction ms as [|m ms IH]; intros x F; [reflexivity|]. cbn [forallb] in F. apply andb_true_iff in F. destruct F as [Fm F].
  cbn [key_loop map schedule]. set (h := rol28 (N.land (N.shiftr x 28) mask28) m). set (l := rol28 (N.land x mask28) m). set (k := N.land (N.lor (N.shiftl h 28) l) mask56).
  assert (Hh : bits 28 h = rotate (N.to_nat m) (bits 28 (N.shiftr x 28))).
  { unfold h. rewrite <- (N2Nat.id m) at 1. rewrite rol_bits; [|apply (mask_lt 28)|lia]. f_equal. apply (bits_mask 28). }
  assert (Hl : bits 28 l = rotate (N.to_nat m) (bits 28 x)).
  { unfold l. rewrite <- (N2Nat.id m) at 1. rewrite rol_bits; [|apply (mask_lt 28)|lia]. f_equal. apply (bits_mask 28). }
  assert (Ll : l < 2 ^ 28) by apply (mask_lt 28).
  assert (Kl : bits 28 k = bits 28 l).
  { unfold k. change mask56 with (N.ones (N.of_nat 56)). rewrite bits_mask_low by lia. apply bits_ext. intros i Hi. rewrite N.lor_spec, N.shiftl_spec_low by lia. reflexivity. }
  assert (Kh : bits 28 (N.shiftr k 28) = bits 28 h).
  { apply bits_ext. intros i Hi. unfold k. change mask56 with (N.ones 56). rewrite N.shiftr_spec, N.land_spec, N.lor_spec by lia. rewrite N.ones_spec_low by lia.
    rewrite N.shiftl_spec_high by lia. rewrite (high_bits 28 l Ll) by lia. rewrite orb_false_r, andb_true_r. f_equal. lia. }
  f_equal.
  - rewrite pc2_bits. change 56%nat with (28 + 28)%nat. rewrite bits_app. change (N.of_nat 28) with 28. rewrite Kh, Kl, Hh, Hl. reflexivity.
  - rewrite IH by exact F. rewrite Kh, Kl, Hh, Hl. reflexivity.
Qed.
Lemma init_bits key : map (bits 48) (des_init key) = key_schedule (bits 64 key).
Proof.
  unfold des_init, key_schedule. rewrite key_loop_bits by reflexivity. change (map N.to_nat move_times) with shifts. rewrite <- pc1_bits.
  change 56%nat with (28 + 28)%nat. rewrite bits_app. change (N.of_nat 28) with 28.
  rewrite firstn_bits, skipn_bits. reflexivity.
Qed.

(** ** Rounds *)
Lemma xor_bits_comm a : forall b, xor_bits a b = xor_bits b a.
Proof. induction a as [|x a IH]; intros [|y b]; cbn [xor_bits]; try reflexivity. rewrite IH, xorb_comm. reflexivity. Qed.
Lemma round_eq l r k : round (l, r) k = (r, N.lxor (p_permute (s_permute (N.lxor (extension_permute r) k))) l).
Proof. reflexivity. Qed.
Lemma f_bits l r k : bits 32 (N.lxor (p_permute (s_permute (N.lxor (extension_permute r) k))) l) = xor_bits (bits 32 l) (cipher_f (bits 32 r) (bits 48 k)).
Proof. rewrite bits_lxor, p_bits, s_bits, bits_lxor, extension_bits, xor_bits_comm. unfold cipher_f. reflexivity. Qed.
Lemma fold_cons k ks p : fold_left round (k :: ks) p = fold_left round ks (round p k).
Proof. reflexivity. Qed.
Lemma rounds_cons k ks l r : rounds (k :: ks) l r = rounds ks r (xor_bits l (cipher_f r k)).
Proof. reflexivity. Qed.
Lemma rounds_bits : forall ks l r, let '(l', r') := fold_left round ks (l, r) in (bits 32 l', bits 32 r') = rounds (map (bits 48) ks) (bits 32 l) (bits 32 r).
Proof.
  induction ks as [|k ks IH]; intros l r; [reflexivity|]. rewrite fold_cons, map_cons, rounds_cons, round_eq, <- f_bits. apply IH.
Qed.
Lemma split64 x : bits 64 x = bits 32 (N.land (N.shiftr x 32) mask32) ++ bits 32 (N.land x mask32).
Proof. change mask32 with (N.ones (N.of_nat 32)). rewrite !bits_mask. change 64%nat with (32 + 32)%nat. rewrite bits_app. reflexivity. Qed.
Lemma join64 h l : bits 64 (N.lor (N.shiftl (N.land h mask32) 32) (N.land l mask32)) = bits 32 h ++ bits 32 l.
Proof.
  change 64%nat with (32 + 32)%nat. rewrite bits_app. assert (L : N.land l mask32 < 2 ^ 32) by apply (mask_lt 32). f_equal.
  - rewrite <- (bits_mask 32 h). apply bits_ext. intros k Hk. rewrite N.shiftr_spec, N.lor_spec by lia. rewrite N.shiftl_spec_high by lia. rewrite (high_bits 32 _ L) by lia.
    rewrite orb_false_r. change mask32 with (N.ones (N.of_nat 32)). f_equal. lia.
  - rewrite <- (bits_mask 32 l). apply bits_ext. intros k Hk. rewrite N.lor_spec, N.shiftl_spec_low by lia. reflexivity.
Qed.

Lemma des_is_standard key msg e : bits 64 (des (des_init key) msg e) = des_block e (bits 64 key) (bits 64 msg).
Proof.
  unfold des, des_block. rewrite <- init_bits, <- begin_bits, (split64 (begin_permute msg)).
  rewrite firstn_bits, skipn_bits.
  set (l := N.land (N.shiftr (begin_permute msg) 32) mask32). set (r := N.land (begin_permute msg) mask32).
  assert (K : (if e then map (bits 48) (des_init key) else rev (map (bits 48) (des_init key))) = map (bits 48) (if e then des_init key else rev (des_init key))) by (destruct e; [reflexivity|rewrite map_rev; reflexivity]).
  rewrite K. pose proof (rounds_bits (if e then des_init key else rev (des_init key)) l r) as R. destruct (fold_left round _ _) as [l' r'].
  rewrite <- R. rewrite final_bits, join64. reflexivity.
Qed.

(** ** Decryption *)
Lemma permute_lt win t x : permute win t x < 2 ^ N.of_nat (length t).
Proof. apply lt_high. intros k Hk. apply permute_high. exact Hk. Qed.
Lemma final_lt x : final_permute x < 2 ^ 64.
Proof.
  apply lt_high. intros k Hk. unfold final_permute. rewrite permute_up_bit. change (length final_permutation) with 64%nat.
  replace (k <? 0 + N.of_nat 64) with false by lia. rewrite andb_false_r. reflexivity.
Qed.
Lemma select_select a b bs : Forall (fun i => (1 <= i <= length b)%nat) a -> select a (select b bs) = select (map (fun i => nth (i - 1) b 0%nat) a) bs.
Proof.
  intros F. unfold select at 1 3. rewrite map_map. apply map_ext_in. intros i Hi. rewrite Forall_forall in F. specialize (F i Hi).
  apply nth_select. lia.
Qed.
Lemma select_id : forall bs, length bs = 64%nat -> select (seq 1 64) bs = bs.
Proof.
  intros bs H. apply nth_ext with (d := false) (d' := false); [unfold select; rewrite map_length, seq_length; congruence|].
  intros i Hi. unfold select in Hi. rewrite map_length, seq_length in Hi. rewrite nth_select by (rewrite seq_length; exact Hi). rewrite seq_nth by exact Hi. f_equal. lia.
Qed.
Lemma begin_final x : x < 2 ^ 64 -> begin_permute (final_permute x) = x.
Proof.
  intros H. apply (bits_inj 64); [apply (permute_lt 64 begin_permutation)|exact H|]. rewrite begin_bits, final_bits, select_select by (repeat (constructor; [split; [lia|cbn; lia]|]); constructor).
  change (map (fun i => nth (i - 1) FP 0%nat) IP) with (seq 1 64). apply select_id. apply bits_length.
Qed.
Lemma final_begin x : x < 2 ^ 64 -> final_permute (begin_permute x) = x.
Proof.
  intros H. apply (bits_inj 64); [apply final_lt|exact H|]. rewrite final_bits, begin_bits, select_select by (repeat (constructor; [split; [lia|cbn; lia]|]); constructor).
  change (map (fun i => nth (i - 1) IP 0%nat) FP) with (seq 1 64). apply select_id. apply bits_length.
Qed.

Definition swap (p : N * N) : N * N := (snd p, fst p).
Lemma round_back p k : round (swap (round p k)) k = swap p.
Proof.
  destruct p as [l r]. unfold round, swap. cbn [fst snd]. f_equal. rewrite <- N.lxor_assoc, N.lxor_nilpotent, N.lxor_0_l. reflexivity.
Qed.
Lemma rounds_back : forall ks p, fold_left round (rev ks) (swap (fold_left round ks p)) = swap p.
Proof.
  induction ks as [|k ks IH]; intros p; [reflexivity|]. cbn [fold_left rev]. rewrite fold_left_app. rewrite IH. cbn [fold_left]. apply round_back.
Qed.
Lemma round_lt p k : fst p < 2 ^ 32 -> snd p < 2 ^ 32 -> fst (round p k) < 2 ^ 32 /\ snd (round p k) < 2 ^ 32.
Proof.
  destruct p as [l r]. unfold round. cbn [fst snd]. intros L R. split; [exact R|]. apply lt_high. intros i Hi.
  rewrite N.lxor_spec, (high_bits 32 l L) by exact Hi. rewrite (high_bits 32) by (first [exact Hi|apply (mask_lt 32)]). reflexivity.
Qed.
Lemma rounds_lt : forall ks p, fst p < 2 ^ 32 -> snd p < 2 ^ 32 -> fst (fold_left round ks p) < 2 ^ 32 /\ snd (fold_left round ks p) < 2 ^ 32.
Proof. induction ks as [|k ks IH]; intros p L R; [auto|]. cbn [fold_left]. destruct (round_lt p k L R). apply IH; assumption. Qed.

Definition cut (x : N) : N * N := (N.land (N.shiftr x 32) mask32, N.land x mask32).
Definition join (p : N * N) : N := N.lor (N.shiftl (N.land (snd p) mask32) 32) (N.land (fst p) mask32).
Lemma cut_join p : fst p < 2 ^ 32 -> snd p < 2 ^ 32 -> cut (join p) = swap p.
Proof.
  destruct p as [l r]. cbn [fst snd]. intros L R. unfold cut, join, swap. cbn [fst snd]. change mask32 with (N.ones 32). rewrite !(mask_id 32 l), !(mask_id 32 r) by assumption.
  f_equal; apply N.bits_inj; intros k.
  - rewrite N.land_spec, N.shiftr_spec, N.lor_spec by lia. rewrite N.shiftl_spec_high by lia. rewrite (high_bits 32 l L) by lia. rewrite orb_false_r.
    replace (k + 32 - 32) with k by lia. destruct (N.lt_ge_cases k 32) as [K|K]; [rewrite N.ones_spec_low by exact K; apply andb_true_r|].
    rewrite (high_bits 32 r R) by exact K. reflexivity.
  - rewrite N.land_spec, N.lor_spec. destruct (N.lt_ge_cases k 32) as [K|K].
    + rewrite N.shiftl_spec_low, N.ones_spec_low by exact K. apply andb_true_r.
    + rewrite N.ones_spec_high, andb_false_r by exact K. symmetry. apply (high_bits 32 l L). exact K.
Qed.
Lemma join_cut x : x < 2 ^ 64 -> join (swap (cut x)) = x.
Proof.
  intros H. apply (bits_inj 64); [|exact H|].
  - apply lt_high. intros k Hk. unfold join, swap, cut. cbn [fst snd]. change mask32 with (N.ones 32). rewrite N.lor_spec, N.shiftl_spec_high by lia.
    rewrite !(high_bits 32 (N.land _ (N.ones 32))) by (try apply mask_lt; lia). reflexivity.
  - unfold join, swap, cut. cbn [fst snd]. rewrite join64. symmetry. apply split64.
Qed.
Lemma join_lt p : join p < 2 ^ 64.
Proof.
  apply lt_high. intros k Hk. unfold join. change mask32 with (N.ones 32). rewrite N.lor_spec, N.shiftl_spec_high by lia.
  rewrite !(high_bits 32 (N.land _ (N.ones 32))) by (try apply mask_lt; lia). reflexivity.
Qed.
Lemma des_def keys msg e : des keys msg e = final_permute (join (fold_left round (if e then keys else rev keys) (cut (begin_permute msg)))).
Proof. unfold des, join, cut. destruct (fold_left round _ _) as [l r]. reflexivity. Qed.
Lemma des_back keys msg e : msg < 2 ^ 64 -> des keys (des keys msg e) (negb e) = msg.
Proof.
  intros H. rewrite !des_def. rewrite begin_final by apply join_lt. set (p := cut (begin_permute msg)).
  assert (P : fst p < 2 ^ 32 /\ snd p < 2 ^ 32) by (split; apply (mask_lt 32)). destruct P as [P1 P2].
  destruct (rounds_lt (if e then keys else rev keys) p P1 P2) as [Q1 Q2]. rewrite cut_join by assumption.
  assert (R : (if negb e then keys else rev keys) = rev (if e then keys else rev keys)) by (destruct e; [reflexivity|symmetry; apply rev_involutive]).
  rewrite R, rounds_back. unfold p. rewrite join_cut by (apply (permute_lt 64 begin_permutation)). apply final_begin. exact H.
Qed.
Lemma des_lt keys msg e : des keys msg e < 2 ^ 64.
Proof. rewrite des_def. apply final_lt. Qed.
Lemma tdes_back k1 k2 msg e : msg < 2 ^ 64 -> tdes k1 k2 (tdes k1 k2 msg e) (negb e) = msg.
Proof.
  intros H. destruct e; unfold tdes; cbn [negb].
  - rewrite (des_back k1 _ true) by apply des_lt. rewrite (des_back k2 _ false) by apply des_lt. apply (des_back k1 _ true). exact H.
  - rewrite (des_back k1 _ false) by apply des_lt. rewrite (des_back k2 _ true) by apply des_lt. apply (des_back k1 _ false). exact H.
Qed.
Lemma tdes_lt k1 k2 msg e : tdes k1 k2 msg e < 2 ^ 64.
Proof. unfold tdes. destruct e; apply des_lt. Qed.

(** ** Buffers *)
Lemma byte_mask b : b < 256 -> N.land b 255 = b.
Proof. intros H. change 255 with (N.ones 8). apply mask_id. exact H. Qed.
Lemma take_word_lt : forall i inp fill, fst (take_word i inp fill) < 2 ^ (8 * N.of_nat i).
Proof.
  induction i as [|i IH]; intros inp fill; cbn [take_word]; [reflexivity|].
  destruct inp as [|c r]; [specialize (IH [] fill); destruct (take_word i [] fill) as [w rest]|specialize (IH r fill); destruct (take_word i r fill) as [w rest]];
    cbn [fst] in *; apply lt_high; intros k Hk; rewrite N.lor_spec, (high_bits _ _ IH), N.shiftl_spec_high by lia;
    rewrite (high_bits 8) by (try (change 255 with (N.ones 8); apply mask_lt); lia); reflexivity.
Qed.
Lemma word_bytes_S i x : word_bytes (S i) x = N.land (N.shiftr x (8 * N.of_nat i)) 255 :: word_bytes i x.
Proof. reflexivity. Qed.
Lemma word_bytes_len i x : length (word_bytes i x) = i.
Proof. induction i; cbn [word_bytes length]; [|rewrite IHi]; reflexivity. Qed.
Lemma word_bytes_ext i x y : (forall k, k < 8 * N.of_nat i -> N.testbit x k = N.testbit y k) -> word_bytes i x = word_bytes i y.
Proof.
  induction i as [|i IH]; intros H; [reflexivity|]. rewrite !word_bytes_S. f_equal.
  - apply N.bits_inj. intros k. rewrite !N.land_spec, !N.shiftr_spec by lia. change 255 with (N.ones 8). destruct (N.lt_ge_cases k 8) as [K|K].
    + rewrite H by lia. reflexivity.
    + rewrite N.ones_spec_high, !andb_false_r by exact K. reflexivity.
  - apply IH. intros k Hk. apply H. lia.
Qed.
Definition pad (i : nat) (inp : list N) (fill : N) : list N := firstn i inp ++ repeat fill (i - length inp).
Lemma take_word_bytes : forall i inp fill, Forall (fun b => b < 256) inp -> fill < 256 ->
  word_bytes i (fst (take_word i inp fill)) = pad i inp fill /\ snd (take_word i inp fill) = skipn i inp.
Proof.
  induction i as [|i IH]; intros inp fill F Hf; [split; reflexivity|]. cbn [take_word].
  assert (X : forall b rest, b < 256 -> Forall (fun b => b < 256) rest -> let '(w, r) := take_word i rest fill in
            word_bytes (S i) (N.lor (N.shiftl (N.land b 255) (8 * N.of_nat i)) w) = b :: pad i rest fill /\ r = skipn i rest).
  { intros b rest Hb Fr. destruct (IH rest fill Fr Hf) as [A B]. pose proof (take_word_lt i rest fill) as L. destruct (take_word i rest fill) as [w r]. cbn [fst snd] in *.
    split; [|exact B]. rewrite word_bytes_S. rewrite (byte_mask b Hb). f_equal.
    - apply N.bits_inj. intros k. rewrite N.land_spec, N.shiftr_spec, N.lor_spec by lia. rewrite (high_bits _ _ L), N.shiftl_spec_high by lia. rewrite orb_false_r.
      replace (k + 8 * N.of_nat i - 8 * N.of_nat i) with k by lia. change 255 with (N.ones 8). destruct (N.lt_ge_cases k 8) as [K|K].
      + rewrite N.ones_spec_low by exact K. apply andb_true_r.
      + rewrite N.ones_spec_high, andb_false_r by exact K. symmetry. apply (high_bits 8 b); [exact Hb|exact K].
    - rewrite <- A. apply word_bytes_ext. intros k Hk. rewrite N.lor_spec, N.shiftl_spec_low by lia. reflexivity. }
  destruct inp as [|c r].
  - specialize (X fill [] Hf (Forall_nil _)). destruct (take_word i [] fill) as [w rest]. cbn [fst snd]. destruct X as [A B]. rewrite A, B. split.
    + unfold pad. rewrite !firstn_nil, !Nat.sub_0_r. reflexivity.
    + rewrite skipn_nil. reflexivity.
  - inversion F as [|? ? Fc Fr]; subst. specialize (X c r Fc Fr). destruct (take_word i r fill) as [w rest]. cbn [fst snd]. destruct X as [A B]. rewrite A, B. split; reflexivity.
Qed.
Lemma word_bytes_byte i x : Forall (fun b => b < 256) (word_bytes i x).
Proof. induction i; cbn [word_bytes]; constructor; [|exact IHi]. change 255 with (N.ones 8). apply mask_lt. Qed.
Lemma cons_inj (A : Type) (a b : A) l m : a :: l = b :: m -> a = b /\ l = m.
Proof. intros E. injection E. auto. Qed.
Lemma word_bytes_inj : forall i x y, x < 2 ^ (8 * N.of_nat i) -> y < 2 ^ (8 * N.of_nat i) -> word_bytes i x = word_bytes i y -> x = y.
Proof.
  intros i x y Hx Hy E. apply N.bits_inj. intros k. destruct (N.lt_ge_cases k (8 * N.of_nat i)) as [K|K]; [|rewrite (high_bits _ _ Hx), (high_bits _ _ Hy) by exact K; reflexivity].
  clear Hx Hy. induction i as [|i IH]; [lia|]. rewrite !word_bytes_S in E. apply cons_inj in E. destruct E as [E1 E2]. destruct (N.lt_ge_cases k (8 * N.of_nat i)) as [L|L]; [apply IH; assumption|].
  assert (B : N.testbit (N.land (N.shiftr x (8 * N.of_nat i)) 255) (k - 8 * N.of_nat i) = N.testbit (N.land (N.shiftr y (8 * N.of_nat i)) 255) (k - 8 * N.of_nat i)) by (rewrite E1; reflexivity).
  rewrite !N.land_spec, !N.shiftr_spec in B by lia. change 255 with (N.ones 8) in B. rewrite N.ones_spec_low, !andb_true_r in B by lia.
  replace (k - 8 * N.of_nat i + 8 * N.of_nat i) with k in B by lia. exact B.
Qed.

Lemma padding_step n : (8 <= n)%nat -> padding n = padding (n - 8).
Proof. intros H. unfold padding. replace (n + 7)%nat with (n - 8 + 7 + 1 * 8)%nat by lia. rewrite Nat.div_add by lia. lia. Qed.
Lemma padding_small n : (1 <= n <= 8)%nat -> padding n = (8 - n)%nat.
Proof. intros H. unfold padding. assert ((n + 7) / 8 = 1)%nat by lia. lia. Qed.

Lemma buf_step fuel f c inp outlen fill : buf_loop (S fuel) f (c :: inp) outlen fill =
  (let '(w, rest) := take_word 8 (c :: inp) fill in let bs := word_bytes 8 (f w) in
   if (outlen <? 8)%nat then Some (firstn outlen bs) else r <- buf_loop fuel f rest (outlen - 8) fill ;; Some (bs ++ r)).
Proof. reflexivity. Qed.

Lemma buf_back f g fill : (forall w, w < 2 ^ 64 -> g (f w) = w) -> (forall w, f w < 2 ^ 64) -> fill < 256 ->
  forall n inp outlen outlen' fuel fuel' fill', (length inp <= n)%nat -> Forall (fun b => b < 256) inp -> (length inp <= fuel)%nat ->
    (length inp + padding (length inp) <= outlen)%nat -> (length inp + padding (length inp) <= outlen')%nat -> (length inp + padding (length inp) <= fuel')%nat ->
    exists c, buf_loop fuel f inp outlen fill = Some c /\ length c = (length inp + padding (length inp))%nat /\ Forall (fun b => b < 256) c /\
      buf_loop fuel' g c outlen' fill' = Some (inp ++ repeat fill (padding (length inp))).
Proof.
  intros GF FL Hfill. induction n as [|n IH]; intros inp outlen outlen' fuel fuel' fill' Hn F Hf Ho Ho' Hf'.
  - destruct inp; [|cbn in Hn; lia]. exists []. destruct fuel, fuel'; repeat split; constructor.
  - destruct inp as [|c inp]; [exists []; destruct fuel, fuel'; repeat split; constructor|].
    destruct fuel as [|fuel]; [cbn in Hf; lia|]. remember (c :: inp) as s eqn:Es.
    assert (Ls : (1 <= length s)%nat) by (subst s; cbn; lia).
    assert (Hp : (8 <= length s + padding (length s))%nat) by (unfold padding; lia).
    rewrite Es, buf_step, <- Es. destruct (take_word_bytes 8 s fill F Hfill) as [A B]. pose proof (take_word_lt 8 s fill) as L.
    destruct (take_word 8 s fill) as [w rest]. cbn [fst snd] in A, B, L. change (8 * N.of_nat 8) with 64 in L.
    replace (outlen <? 8)%nat with false by lia. subst rest.
    assert (Lsk : length (skipn 8 s) = (length s - 8)%nat) by apply skipn_length.
    assert (Pk : (length (skipn 8 s) + padding (length (skipn 8 s)) + 8 = length s + padding (length s))%nat).
    { rewrite Lsk. destruct (le_lt_dec 8 (length s)) as [G|G]; [rewrite (padding_step (length s)) by exact G; lia|].
      rewrite (padding_small (length s)) by lia. replace (length s - 8)%nat with 0%nat by lia. change (padding 0) with 0%nat. lia. }
    destruct fuel' as [|fuel']; [lia|].
    destruct (IH (skipn 8 s) (outlen - 8)%nat (outlen' - 8)%nat fuel fuel' fill') as (c2 & E1 & E2 & E3 & E4); try lia.
    { rewrite <- (firstn_skipn 8 s) in F. apply Forall_app in F. tauto. }
    rewrite E1. cbn [obind]. exists (word_bytes 8 (f w) ++ c2). split; [reflexivity|]. split; [rewrite app_length, word_bytes_len; lia|].
    split; [apply Forall_app; split; [apply word_bytes_byte|exact E3]|].
    destruct (take_word_bytes 8 (word_bytes 8 (f w) ++ c2) 0) as [A2 B2]; [apply Forall_app; split; [apply word_bytes_byte|exact E3]|lia|].
    assert (Tw : forall fl, take_word 8 (word_bytes 8 (f w) ++ c2) fl = take_word 8 (word_bytes 8 (f w) ++ c2) 0) by (intros fl; reflexivity).
    assert (Hc : exists x y, word_bytes 8 (f w) ++ c2 = x :: y) by (cbn [word_bytes app]; eauto). destruct Hc as (x & y & Hxy).
    rewrite Hxy, buf_step, <- Hxy, Tw. pose proof (take_word_lt 8 (word_bytes 8 (f w) ++ c2) 0) as L2. destruct (take_word 8 (word_bytes 8 (f w) ++ c2) 0) as [w2 r2].
    cbn [fst snd] in A2, B2, L2. replace (outlen' <? 8)%nat with false by lia.
    assert (Ew : w2 = f w).
    { apply (word_bytes_inj 8); [exact L2|apply FL|]. rewrite A2. unfold pad. rewrite app_length, word_bytes_len. replace (8 - (8 + length c2))%nat with 0%nat by lia.
      cbn [repeat]. rewrite app_nil_r, firstn_app, word_bytes_len, Nat.sub_diag, firstn_O, app_nil_r. apply firstn_all2. rewrite word_bytes_len. lia. }
    subst w2 r2. rewrite GF by exact L. rewrite skipn_app, word_bytes_len, Nat.sub_diag. rewrite skipn_all2 by (rewrite word_bytes_len; lia). cbn [app skipn]. rewrite E4. cbn [obind].
    f_equal. rewrite A. unfold pad. rewrite Lsk.
    destruct (le_lt_dec 8 (length s)) as [G|G].
    + replace (8 - length s)%nat with 0%nat by lia. cbn [repeat]. rewrite app_nil_r, app_assoc, firstn_skipn, (padding_step (length s)) by exact G. reflexivity.
    + rewrite skipn_all2, firstn_all2 by lia. rewrite (padding_small (length s)) by lia. replace (length s - 8)%nat with 0%nat by lia. change (padding 0) with 0%nat.
      cbn [app repeat]. rewrite app_nil_r. reflexivity.
Qed.

Lemma des_buf_ok key inp outlen outlen' fill fill' e : Forall (fun b => b < 256) inp -> fill < 256 ->
  (length inp + padding (length inp) <= outlen)%nat -> (length inp + padding (length inp) <= outlen')%nat ->
  exists c, des_buf (des_init key) inp outlen fill e = Some c /\ length c = (length inp + padding (length inp))%nat /\
    des_buf (des_init key) c outlen' fill' (negb e) = Some (inp ++ repeat fill (padding (length inp))).
Proof.
  intros F Hf Ho Ho'.
  destruct (buf_back (fun w => des (des_init key) w e) (fun w => des (des_init key) w (negb e)) fill) with (n := length inp) (inp := inp) (outlen := outlen) (outlen' := outlen')
    (fuel := length inp) (fuel' := (length inp + padding (length inp))%nat) (fill' := fill') as (c & A & B & C & D); auto.
  - intros w Hw. apply des_back. exact Hw.
  - intros w. apply des_lt.
  - exists c. split; [exact A|]. split; [exact B|]. unfold des_buf. rewrite B. exact D.
Qed.
Lemma tdes_buf_ok key1 key2 inp outlen outlen' fill fill' e : Forall (fun b => b < 256) inp -> fill < 256 ->
  (length inp + padding (length inp) <= outlen)%nat -> (length inp + padding (length inp) <= outlen')%nat ->
  exists c, tdes_buf (des_init key1) (des_init key2) inp outlen fill e = Some c /\ length c = (length inp + padding (length inp))%nat /\
    tdes_buf (des_init key1) (des_init key2) c outlen' fill' (negb e) = Some (inp ++ repeat fill (padding (length inp))).
Proof.
  intros F Hf Ho Ho'.
  destruct (buf_back (fun w => tdes (des_init key1) (des_init key2) w e) (fun w => tdes (des_init key1) (des_init key2) w (negb e)) fill) with (n := length inp) (inp := inp) (outlen := outlen) (outlen' := outlen')
    (fuel := length inp) (fuel' := (length inp + padding (length inp))%nat) (fill' := fill') as (c & A & B & C & D); auto.
  - intros w Hw. apply tdes_back. exact Hw.
  - intros w. apply tdes_lt.
  - exists c. split; [exact A|]. split; [exact B|]. unfold tdes_buf. rewrite B. exact D.
Qed.
Lemma tdes_is_standard key1 key2 msg e : bits 64 (tdes (des_init key1) (des_init key2) msg e) =
  des_block e (bits 64 key1) (des_block (negb e) (bits 64 key2) (des_block e (bits 64 key1) (bits 64 msg))).
Proof. destruct e; unfold tdes, negb; rewrite !des_is_standard; reflexivity. Qed.

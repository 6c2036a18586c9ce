(** Proofs for AES. *)
Require Import List Arith NArith ZArith Lia Bool.
Require Import ZifyBool ZifyNat ZifyN.
Require Import Verif.Base Verif.Sweep Verif.DesProofs Verif.AesModel Verif.AesSpec.
Import ListNotations.
Open Scope N_scope.

(** * Words of four bytes *)
Definition isb (b : N) : Prop := b < 256.
Definition word4 (a b c d : N) : N := N.lor (N.lor (N.lor (N.shiftl a 24) (N.shiftl b 16)) (N.shiftl c 8)) d.
Lemma isb_high b n : isb b -> 8 <= n -> N.testbit b n = false.
Proof. intros H. apply (high_bits 8). exact H. Qed.
Lemma shl_bit a n k : N.testbit (N.shiftl a n) k = (n <=? k) && N.testbit a (k - n).
Proof.
  destruct (N.leb_spec n k).
  - rewrite N.shiftl_spec_high'; auto.
  - rewrite N.shiftl_spec_low; auto.
Qed.
Lemma word4_bit a b c d n : isb a -> isb b -> isb c -> isb d -> N.testbit (word4 a b c d) n =
  if n <? 8 then N.testbit d n else if n <? 16 then N.testbit c (n - 8) else if n <? 24 then N.testbit b (n - 16) else N.testbit a (n - 24).
Proof.
  intros Ha Hb Hc Hd. unfold word4. rewrite !N.lor_spec, !shl_bit.
  destruct (N.ltb_spec n 8).
  - replace (24 <=? n) with false by lia. replace (16 <=? n) with false by lia. replace (8 <=? n) with false by lia. reflexivity.
  - rewrite (isb_high d n) by (auto; lia). rewrite orb_false_r. replace (8 <=? n) with true by lia.
    destruct (N.ltb_spec n 16).
    + replace (24 <=? n) with false by lia. replace (16 <=? n) with false by lia. reflexivity.
    + rewrite (isb_high c (n - 8)) by (auto; lia). cbn [andb]. rewrite orb_false_r. replace (16 <=? n) with true by lia.
      destruct (N.ltb_spec n 24).
      * replace (24 <=? n) with false by lia. reflexivity.
      * rewrite (isb_high b (n - 16)) by (auto; lia). cbn [andb]. rewrite orb_false_r. replace (24 <=? n) with true by lia. reflexivity.
Qed.
Lemma get_bit w i n : N.testbit (get w i) n = (n <? 8) && N.testbit w (n + pos i).
Proof.
  unfold get. rewrite N.land_spec, N.shiftr_spec by lia. change 0xff with (N.ones 8). destruct (N.ltb_spec n 8).
  - rewrite N.ones_spec_low by lia. rewrite andb_true_r. reflexivity.
  - rewrite N.ones_spec_high by lia. rewrite andb_false_r. reflexivity.
Qed.
Lemma get_isb w i : isb (get w i).
Proof. apply (mask_lt 8). Qed.
Lemma put_bit w i b n : isb b -> N.testbit (put w i b) n = if (pos i <=? n) && (n <? pos i + 8) then N.testbit b (n - pos i) else N.testbit w n.
Proof.
  intros Hb. unfold put. rewrite N.lor_spec, N.lxor_spec, !shl_bit, get_bit.
  destruct (N.leb_spec (pos i) n); cbn [andb].
  - destruct (N.ltb_spec n (pos i + 8)).
    + replace (n - pos i <? 8) with true by lia. replace (n - pos i + pos i) with n by lia. cbn [andb]. rewrite xorb_nilpotent. reflexivity.
    + replace (n - pos i <? 8) with false by lia. cbn [andb]. rewrite xorb_false_r, (isb_high b) by (auto; lia). apply orb_false_r.
  - rewrite xorb_false_r. apply orb_false_r.
Qed.
Lemma get_word i a b c d : isb a -> isb b -> isb c -> isb d -> (i < 4)%nat -> get (word4 a b c d) i = nth i [a; b; c; d] 0.
Proof.
  intros Ha Hb Hc Hd Hi. apply N.bits_inj. intros n. rewrite get_bit, word4_bit by auto. unfold pos.
  destruct (N.ltb_spec n 8); cbn [andb].
  - destruct i as [|[|[|[|i]]]]; [| | | |lia]; cbn [nth].
    + change (8 * N.of_nat (3 - 0)) with 24. replace (n + 24 <? 8) with false by lia. replace (n + 24 <? 16) with false by lia. replace (n + 24 <? 24) with false by lia. f_equal; lia.
    + change (8 * N.of_nat (3 - 1)) with 16. replace (n + 16 <? 8) with false by lia. replace (n + 16 <? 16) with false by lia. replace (n + 16 <? 24) with true by lia. f_equal; lia.
    + change (8 * N.of_nat (3 - 2)) with 8. replace (n + 8 <? 8) with false by lia. replace (n + 8 <? 16) with true by lia. f_equal; lia.
    + change (8 * N.of_nat (3 - 3)) with 0. replace (n + 0 <? 8) with true by lia. f_equal; lia.
  - symmetry. destruct i as [|[|[|[|i]]]]; [| | | |lia]; cbn [nth]; apply isb_high; auto.
Qed.
Lemma put_word i a b c d x : isb a -> isb b -> isb c -> isb d -> isb x -> (i < 4)%nat ->
  put (word4 a b c d) i x = match i with 0 => word4 x b c d | 1 => word4 a x c d | 2 => word4 a b x d | _ => word4 a b c x end%nat.
Proof.
  intros Ha Hb Hc Hd Hx Hi. apply N.bits_inj. intros n. rewrite put_bit, word4_bit by auto. unfold pos.
  destruct i as [|[|[|[|i]]]]; [| | | |lia]; rewrite word4_bit by auto.
  - change (8 * N.of_nat (3 - 0)) with 24. destruct (N.ltb_spec n 8), (N.ltb_spec n 16), (N.ltb_spec n 24), (N.leb_spec 24 n), (N.ltb_spec n (24 + 8)); cbn [andb]; try lia; auto.
    rewrite (isb_high a), (isb_high x) by (auto; lia). reflexivity.
  - change (8 * N.of_nat (3 - 1)) with 16. destruct (N.ltb_spec n 8), (N.ltb_spec n 16), (N.ltb_spec n 24), (N.leb_spec 16 n), (N.ltb_spec n (16 + 8)); cbn [andb]; try lia; auto.
  - change (8 * N.of_nat (3 - 2)) with 8. destruct (N.ltb_spec n 8), (N.ltb_spec n 16), (N.ltb_spec n 24), (N.leb_spec 8 n), (N.ltb_spec n (8 + 8)); cbn [andb]; try lia; auto.
  - change (8 * N.of_nat (3 - 3)) with 0. destruct (N.ltb_spec n 8), (N.ltb_spec n 16), (N.ltb_spec n 24), (N.leb_spec 0 n), (N.ltb_spec n (0 + 8)); cbn [andb]; try lia; auto. f_equal; lia.
Qed.
Lemma word4_lt a b c d : isb a -> isb b -> isb c -> isb d -> word4 a b c d < 2 ^ 32.
Proof.
  intros Ha Hb Hc Hd. apply lt_high. intros k Hk. rewrite word4_bit by auto.
  replace (k <? 8) with false by lia. replace (k <? 16) with false by lia. replace (k <? 24) with false by lia. apply isb_high; auto; lia.
Qed.
Lemma word4_shl8 a b c d : isb a -> isb b -> isb c -> isb d -> u32 (N.shiftl (word4 a b c d) 8) = word4 b c d 0.
Proof.
  intros Ha Hb Hc Hd. apply N.bits_inj. intros n. unfold u32. change 0xffffffff with (N.ones 32). rewrite N.land_spec, shl_bit, !word4_bit by (auto; reflexivity).
  destruct (N.ltb_spec n 32).
  - rewrite N.ones_spec_low by lia. rewrite andb_true_r.
    destruct (N.leb_spec 8 n), (N.ltb_spec n 8), (N.ltb_spec n 16), (N.ltb_spec n 24), (N.ltb_spec (n - 8) 8), (N.ltb_spec (n - 8) 16), (N.ltb_spec (n - 8) 24);
      cbn [andb]; try lia; try (rewrite N.bits_0); try reflexivity; f_equal; lia.
  - rewrite N.ones_spec_high by lia. rewrite andb_false_r. replace (n <? 8) with false by lia. replace (n <? 16) with false by lia. replace (n <? 24) with false by lia.
    symmetry. apply isb_high; auto; lia.
Qed.
Lemma word4_rotl8 a b c d : isb a -> isb b -> isb c -> isb d -> rotl (word4 a b c d) 8 = word4 b c d a.
Proof.
  intros Ha Hb Hc Hd. apply N.bits_inj. intros n. unfold rotl, u32. change 0xffffffff with (N.ones 32).
  rewrite !N.land_spec, N.lor_spec, N.land_spec, shl_bit, N.shiftr_spec, !word4_bit by (auto; lia). change (32 - 8) with 24.
  destruct (N.ltb_spec n 32).
  - rewrite N.ones_spec_low by lia. rewrite !andb_true_r.
    replace (n + 24 <? 8) with false by lia. replace (n + 24 <? 16) with false by lia. replace (n + 24 <? 24) with false by lia. replace (n + 24 - 24) with n by lia.
    destruct (N.ltb_spec n 8).
    + replace (8 <=? n) with false by lia. reflexivity.
    + rewrite (isb_high a n) by (auto; lia). rewrite orb_false_r. replace (8 <=? n) with true by lia. cbn [andb].
      destruct (N.ltb_spec n 16), (N.ltb_spec n 24), (N.ltb_spec (n - 8) 8), (N.ltb_spec (n - 8) 16), (N.ltb_spec (n - 8) 24); try lia; try reflexivity; f_equal; lia.
  - rewrite N.ones_spec_high by lia. rewrite andb_false_r. replace (n <? 8) with false by lia. replace (n <? 16) with false by lia. replace (n <? 24) with false by lia.
    symmetry. apply isb_high; auto; lia.
Qed.
Lemma rotl_rotl w n m : w < 2 ^ 32 -> n + m <= 32 -> rotl (rotl w n) m = rotl w (n + m).
Proof.
  intros Hw Hm. apply N.bits_inj. intros k. unfold rotl, u32. change 0xffffffff with (N.ones 32).
  rewrite !N.land_spec, !N.lor_spec, !N.land_spec, !shl_bit, !N.shiftr_spec, !N.land_spec, !N.lor_spec, !N.land_spec, !shl_bit, !N.shiftr_spec by lia.
  assert (Hh : forall j, 32 <= j -> N.testbit w j = false) by (apply high_bits; exact Hw).
  destruct (N.ltb_spec k 32).
  2:{ rewrite (N.ones_spec_high 32 k) by lia. rewrite !andb_false_r. reflexivity. }
  rewrite (N.ones_spec_low 32 k) by lia. rewrite !andb_true_r.
  destruct (N.leb_spec m k); cbn [andb].
  - rewrite (N.ones_spec_low 32 (k - m)) by lia. rewrite (N.ones_spec_high 32 (k + (32 - m))) by lia. rewrite !andb_true_r, !andb_false_r, !orb_false_r.
    destruct (N.leb_spec n (k - m)), (N.leb_spec (n + m) k); cbn [andb]; try lia.
    + f_equal; [f_equal; lia|]. rewrite !Hh by lia. reflexivity.
    + cbn [orb]. f_equal; lia.
  - replace (n + m <=? k) with false by lia. cbn [andb orb].
    rewrite (N.ones_spec_low 32 (k + (32 - m))) by lia. rewrite !andb_true_r. replace (n <=? k + (32 - m)) with true by lia. cbn [andb].
    rewrite (Hh (k + (32 - m) + (32 - n))) by lia. rewrite orb_false_r. f_equal; lia.
Qed.
Lemma rotr_rotl w n : n <= 32 -> rotr w n = rotl w (32 - n).
Proof. intros H. unfold rotr, rotl. rewrite N.lor_comm. replace (32 - (32 - n)) with n by lia. reflexivity. Qed.

(** * The state as four row words *)
Definition st (f : nat -> nat -> N) : list N := map (fun r => word4 (f r 0%nat) (f r 1%nat) (f r 2%nat) (f r 3%nat)) four.
Definition okf (f : nat -> nat -> N) : Prop := forall r c, (r < 4)%nat -> (c < 4)%nat -> isb (f r c).
Definition same (f g : nat -> nat -> N) : Prop := forall r c, (r < 4)%nat -> (c < 4)%nat -> f r c = g r c.
Lemma st_same f g : same f g -> st f = st g.
Proof. intros H. unfold st, four. cbn [map]. rewrite !H by lia. reflexivity. Qed.
Lemma make_same f g : same f g -> make f = make g.
Proof. intros H. unfold make. cbn [map flat_map app]. rewrite !H by lia. reflexivity. Qed.
Lemma at_make f r c : (r < 4)%nat -> (c < 4)%nat -> at_ (make f) r c = f r c.
Proof. intros Hr Hc. do 4 (destruct r as [|r]; [do 4 (destruct c as [|c]; [reflexivity|]); lia|]). lia. Qed.
Lemma make_at s : length s = 16%nat -> make (at_ s) = s.
Proof. intros H. do 16 (destruct s as [|? s]; [discriminate|]). destruct s; [reflexivity|discriminate]. Qed.
Lemma row_st f r : (r < 4)%nat -> row (st f) r = word4 (f r 0%nat) (f r 1%nat) (f r 2%nat) (f r 3%nat).
Proof. intros H. do 4 (destruct r as [|r]; [reflexivity|]). lia. Qed.
Lemma get_st f r c : okf f -> (r < 4)%nat -> (c < 4)%nat -> get (row (st f) r) c = f r c.
Proof.
  intros H Hr Hc. rewrite row_st by auto. rewrite get_word by (auto; apply H; lia).
  do 4 (destruct c as [|c]; [reflexivity|]). lia.
Qed.
Definition set1 (f : nat -> nat -> N) (r c : nat) (b : N) : nat -> nat -> N := fun r' c' => if (r' =? r)%nat && (c' =? c)%nat then b else f r' c'.
Lemma set1_ok f r c b : okf f -> isb b -> okf (set1 f r c b).
Proof. intros H Hb r' c' Hr Hc. unfold set1. destruct ((r' =? r)%nat && (c' =? c)%nat); auto. Qed.
Lemma put_st f r c b : okf f -> isb b -> (r < 4)%nat -> (c < 4)%nat -> upd (st f) r (put (row (st f) r) c b) = st (set1 f r c b).
Proof.
  intros H Hb Hr Hc. rewrite row_st by auto. rewrite put_word by (auto; apply H; lia).
  do 4 (destruct r as [|r]; [do 4 (destruct c as [|c]; [reflexivity|]); lia|]). lia.
Qed.
Definition okg (g : nat -> nat -> N -> N) : Prop := forall i j b, isb b -> isb (g i j b).
Lemma inner_st g i : okg g -> (i < 4)%nat -> forall js f, okf f -> Forall (fun j => (j < 4)%nat) js -> NoDup js ->
  exists f', okf f' /\ fold_left (fun st j => upd st j (put (row st j) i (g i j (get (row st j) i)))) js (st f) = st f' /\
    forall r c, (r < 4)%nat -> (c < 4)%nat -> f' r c = if (c =? i)%nat && existsb (Nat.eqb r) js then g i r (f r c) else f r c.
Proof.
  intros Hg Hi. induction js as [|j js IH]; intros f Hf Fj ND.
  - exists f. split; auto. split; [reflexivity|]. intros r c Hr Hc. cbn [existsb]. rewrite andb_false_r. reflexivity.
  - cbn [fold_left]. inversion Fj as [|? ? Hj Fj']; inversion ND as [|? ? Nj ND']; subst.
    rewrite get_st by auto. rewrite put_st by (auto; apply Hg; apply Hf; auto).
    destruct (IH (set1 f j i (g i j (f j i)))) as (f' & O' & E' & V'); auto.
    { apply set1_ok; auto. }
    exists f'. split; auto. split; auto. intros r c Hr Hc. rewrite V' by auto. unfold set1. cbn [existsb].
    destruct (Nat.eqb_spec c i) as [->|]; cbn [andb]; [|rewrite andb_false_r; reflexivity].
    destruct (Nat.eqb_spec r j) as [->|]; cbn [andb orb]; [|reflexivity].
    destruct (existsb (Nat.eqb j) js) eqn:EX; [|reflexivity].
    exfalso. apply existsb_exists in EX as (x & Hx & Ex). apply Nat.eqb_eq in Ex. subst. auto.
Qed.
Lemma outer_st g : okg g -> forall is f, okf f -> Forall (fun j => (j < 4)%nat) is -> NoDup is ->
  exists f', okf f' /\ fold_left (fun st i => fold_left (fun st j => upd st j (put (row st j) i (g i j (get (row st j) i)))) four st) is (st f) = st f' /\
    forall r c, (r < 4)%nat -> (c < 4)%nat -> f' r c = if existsb (Nat.eqb c) is then g c r (f r c) else f r c.
Proof.
  intros Hg. induction is as [|i is IH]; intros f Hf Fi ND.
  - exists f. split; auto.
  - cbn [fold_left]. inversion Fi as [|? ? Hi Fi']; inversion ND as [|? ? Ni ND']; subst.
    destruct (inner_st g i Hg Hi four f Hf) as (f1 & O1 & E1 & V1).
    { unfold four. repeat constructor. }
    { unfold four. repeat constructor; cbn; intuition discriminate. }
    rewrite E1. destruct (IH f1 O1 Fi' ND') as (f' & O' & E' & V').
    exists f'. split; auto. split; auto. intros r c Hr Hc. rewrite V', V1 by auto. cbn [existsb].
    assert (existsb (Nat.eqb r) four = true) as -> by (do 4 (destruct r as [|r]; [reflexivity|]); lia). rewrite andb_true_r.
    destruct (Nat.eqb_spec c i) as [->|]; cbn [orb]; [|reflexivity].
    destruct (existsb (Nat.eqb i) is) eqn:EX; [|reflexivity].
    exfalso. apply existsb_exists in EX as (x & Hx & Ex). apply Nat.eqb_eq in Ex. subst. auto.
Qed.
Lemma each_st g f : okg g -> okf f -> each g (st f) = st (fun r c => g c r (f r c)).
Proof.
  intros Hg Hf. unfold each. destruct (outer_st g Hg four f Hf) as (f' & O' & E' & V').
  { unfold four. repeat constructor. }
  { unfold four. repeat constructor; cbn; intuition discriminate. }
  rewrite E'. apply st_same. intros r c Hr Hc. rewrite V' by auto. do 4 (destruct c as [|c]; [reflexivity|]). lia.
Qed.
Definition okh (h : nat -> N -> N -> N -> N -> N) : Prop := forall j a b c d, isb a -> isb b -> isb c -> isb d -> isb (h j a b c d).
Lemma mix_st h f i : okh h -> okf f -> (i < 4)%nat ->
  mix_with h (st f) i = st (fun r c => if (c =? i)%nat then h r (f 0%nat c) (f 1%nat c) (f 2%nat c) (f 3%nat c) else f r c).
Proof.
  intros Hh Hf Hi. unfold mix_with. rewrite !get_st by (auto; lia).
  destruct (inner_st (fun _ j _ => h j (f 0%nat i) (f 1%nat i) (f 2%nat i) (f 3%nat i)) i) with (js := four) (f := f) as (f' & O' & E' & V'); auto.
  { intros i' j b _. apply Hh; apply Hf; lia. }
  { unfold four. repeat constructor. }
  { unfold four. repeat constructor; cbn; intuition discriminate. }
  rewrite E'. apply st_same. intros r c Hr Hc. rewrite V' by auto.
  assert (existsb (Nat.eqb r) four = true) as -> by (do 4 (destruct r as [|r]; [reflexivity|]); lia). rewrite andb_true_r.
  destruct (Nat.eqb_spec c i) as [->|]; reflexivity.
Qed.
Lemma mix_all h f : okh h -> okf f -> fold_left (mix_with h) four (st f) = st (fun r c => h r (f 0%nat c) (f 1%nat c) (f 2%nat c) (f 3%nat c)).
Proof.
  intros Hh Hf. unfold four. cbn [fold_left].
  set (step f i := fun r c => if (c =? i)%nat then h r (f 0%nat c) (f 1%nat c) (f 2%nat c) (f 3%nat c) else f r c : N).
  assert (M : forall f i, okf f -> (i < 4)%nat -> mix_with h (st f) i = st (step f i)) by (intros; apply mix_st; auto).
  assert (K : forall f i, okf f -> (i < 4)%nat -> okf (step f i)).
  { intros f' i' Hf' Hi' r c Hr Hc. unfold step. destruct (c =? i')%nat; auto. apply Hh; apply Hf'; lia. }
  rewrite !M; auto; try lia; repeat (apply K; try lia); auto.
Qed.
Lemma word4_rotl16 a b c d : isb a -> isb b -> isb c -> isb d -> rotl (word4 a b c d) 16 = word4 c d a b.
Proof. intros. rewrite <- (rotl_rotl _ 8 8) by (try lia; apply word4_lt; auto). rewrite !word4_rotl8; auto. Qed.
Lemma word4_rotl24 a b c d : isb a -> isb b -> isb c -> isb d -> rotl (word4 a b c d) 24 = word4 d a b c.
Proof. intros. rewrite <- (rotl_rotl _ 16 8) by (try lia; apply word4_lt; auto). rewrite word4_rotl16, word4_rotl8; auto. Qed.
Lemma shift_st f : okf f -> shiftrow (st f) = st (fun r c => f r ((c + r) mod 4)%nat).
Proof.
  intros H. unfold shiftrow. rewrite !row_st by lia. rewrite word4_rotl8, word4_rotl16, word4_rotl24 by (apply H; lia). reflexivity.
Qed.
Lemma invshift_st f : okf f -> invshiftrow (st f) = st (fun r c => f r ((c + 4 - r) mod 4)%nat).
Proof.
  intros H. unfold invshiftrow. rewrite !row_st by lia. rewrite !rotr_rotl by lia.
  change (32 - 8) with 24. change (32 - 16) with 16. change (32 - 24) with 8.
  rewrite word4_rotl8, word4_rotl16, word4_rotl24 by (apply H; lia). reflexivity.
Qed.

(** * Bytes *)
Lemma sweep_b (f : N -> bool) : forallb f (nrange 256) = true -> forall a, isb a -> f a = true.
Proof. intros H a Ha. exact (sweep1 256 f H a Ha). Qed.
Lemma sub_ok b : isb b -> N.land (sub b) 0xff = sub_byte b.
Proof. intros H. apply N.eqb_eq. revert b H. apply sweep_b. vm_compute. reflexivity. Qed.
Lemma sub_isb b : isb b -> isb (sub_byte b).
Proof. intros H. rewrite <- sub_ok by auto. apply (mask_lt 8). Qed.
Lemma rsub_sub b : isb b -> N.land (rsub (N.land (sub b) 0xff)) 0xff = b.
Proof. intros H. apply N.eqb_eq. revert b H. apply sweep_b. vm_compute. reflexivity. Qed.
Lemma sub_rsub b : isb b -> N.land (sub (N.land (rsub b) 0xff)) 0xff = b.
Proof. intros H. apply N.eqb_eq. revert b H. apply sweep_b. vm_compute. reflexivity. Qed.
Lemma rsub_ok b : isb b -> N.land (rsub b) 0xff = inv_sub_byte b.
Proof.
  intros H. unfold inv_sub_byte. destruct (find _ _) as [x|] eqn:F.
  - apply find_some in F as (I & E). apply N.eqb_eq in E. apply in_map_iff in I as (n & <- & In). apply in_seq in In.
    assert (Hn : isb (N.of_nat n)) by (unfold isb; lia).
    rewrite <- E, <- sub_ok by auto. apply rsub_sub. auto.
  - exfalso. pose proof (find_none _ _ F (N.land (rsub b) 0xff)) as Z. cbv beta in Z.
    assert (Hr : isb (N.land (rsub b) 0xff)) by apply (mask_lt 8).
    rewrite <- sub_ok, sub_rsub in Z by auto. rewrite N.eqb_refl in Z. discriminate Z.
    apply (nrange_in 256). exact Hr.
Qed.
Lemma inv_sub_sub b : isb b -> inv_sub_byte (sub_byte b) = b.
Proof. intros H. rewrite <- rsub_ok, <- sub_ok by auto using sub_isb. apply rsub_sub; auto. Qed.
Lemma m01_ok b : isb b -> m01 b = gmul 1 b.
Proof. intros H. apply N.eqb_eq. revert b H. apply sweep_b. vm_compute. reflexivity. Qed.
Lemma m02_ok b : isb b -> N.land (m02 b) 0xff = gmul 2 b.
Proof. intros H. apply N.eqb_eq. revert b H. apply sweep_b. vm_compute. reflexivity. Qed.
Lemma m03_ok b : isb b -> m03 b = gmul 3 b.
Proof. intros H. apply N.eqb_eq. revert b H. apply sweep_b. vm_compute. reflexivity. Qed.
Lemma m09_ok b : isb b -> m09 b = gmul 9 b.
Proof. intros H. apply N.eqb_eq. revert b H. apply sweep_b. vm_compute. reflexivity. Qed.
Lemma m0b_ok b : isb b -> m0b b = gmul 0x0b b.
Proof. intros H. apply N.eqb_eq. revert b H. apply sweep_b. vm_compute. reflexivity. Qed.
Lemma m0d_ok b : isb b -> m0d b = gmul 0x0d b.
Proof. intros H. apply N.eqb_eq. revert b H. apply sweep_b. vm_compute. reflexivity. Qed.
Lemma m0e_ok b : isb b -> m0e b = gmul 0x0e b.
Proof. intros H. apply N.eqb_eq. revert b H. apply sweep_b. vm_compute. reflexivity. Qed.
Lemma land_isb b : isb (N.land b 0xff).
Proof. apply (mask_lt 8). Qed.
Lemma xor_isb a b : isb a -> isb b -> isb (N.lxor a b).
Proof.
  intros Ha Hb. apply (lt_high _ 8). intros k Hk. rewrite N.lxor_spec, (isb_high a), (isb_high b); auto.
Qed.
Lemma land_xor a b m : N.land (N.lxor a b) m = N.lxor (N.land a m) (N.land b m).
Proof. apply N.bits_inj. intros k. rewrite !N.lxor_spec, !N.land_spec, N.lxor_spec. destruct (N.testbit a k), (N.testbit b k), (N.testbit m k); reflexivity. Qed.
Lemma land_b b : isb b -> N.land b 0xff = b.
Proof. exact (mask_id 8 b). Qed.
Lemma times_x_xor a b : isb a -> isb b -> times_x (N.lxor a b) = N.lxor (times_x a) (times_x b).
Proof.
  assert (K : forall c, isb c -> times_x c = N.lxor (N.shiftl c 1) (if N.testbit c 7 then 0x11b else 0)).
  { intros c Hc. apply N.eqb_eq. revert c Hc. apply sweep_b. vm_compute. reflexivity. }
  intros Ha Hb. rewrite !K by auto using xor_isb. rewrite N.shiftl_lxor, N.lxor_spec.
  destruct (N.testbit a 7), (N.testbit b 7); cbn [xorb]; apply N.bits_inj; intros k; rewrite !N.lxor_spec; rewrite ?N.bits_0;
    repeat (match goal with |- context [N.testbit ?x k] => destruct (N.testbit x k) end); reflexivity.
Qed.
Lemma times_x_isb a : isb a -> isb (times_x a).
Proof. intros H. apply N.ltb_lt. revert a H. apply sweep_b. vm_compute. reflexivity. Qed.
Lemma gsteps_S n a b : gmul_steps (S n) a b = N.lxor (if N.odd a then b else 0) (gmul_steps n (a / 2) (times_x b)).
Proof. reflexivity. Qed.
Lemma lxor_swap a b c d : N.lxor (N.lxor a b) (N.lxor c d) = N.lxor (N.lxor a c) (N.lxor b d).
Proof. rewrite !N.lxor_assoc. f_equal. rewrite <- !N.lxor_assoc. f_equal. apply N.lxor_comm. Qed.
Lemma gmul_steps_xor : forall n c a b, isb a -> isb b -> gmul_steps n c (N.lxor a b) = N.lxor (gmul_steps n c a) (gmul_steps n c b).
Proof.
  induction n as [|n IH]; intros c a b Ha Hb; [reflexivity|].
  rewrite !gsteps_S, times_x_xor, IH by auto using times_x_isb. rewrite lxor_swap. f_equal. destruct (N.odd c); [reflexivity|]. reflexivity.
Qed.
Lemma gmul_xor c a b : isb a -> isb b -> gmul c (N.lxor a b) = N.lxor (gmul c a) (gmul c b).
Proof. apply gmul_steps_xor. Qed.
Lemma gmul_isb c b : isb b -> isb (gmul c b).
Proof.
  unfold gmul. generalize 8%nat. intros n. revert c b. induction n as [|n IH]; intros c b Hb; [reflexivity|].
  rewrite gsteps_S. apply xor_isb; [destruct (N.odd c); auto; reflexivity|]. auto using times_x_isb.
Qed.

(** * Steps of the cipher on states *)
Definition X (a b c d : N) : N := N.lxor a (N.lxor b (N.lxor c (N.lxor d 0))).
Lemma X_x4 a b c d : x4 a b c d = X a b c d.
Proof. unfold X, x4. rewrite N.lxor_0_r, !N.lxor_assoc. reflexivity. Qed.
Lemma X_add a b c d e f g h : N.lxor (X a b c d) (X e f g h) = X (N.lxor a e) (N.lxor b f) (N.lxor c g) (N.lxor d h).
Proof.
  unfold X. rewrite !N.lxor_0_r. rewrite (lxor_swap a). f_equal. rewrite (lxor_swap b). f_equal. apply lxor_swap.
Qed.
Lemma X_isb a b c d : isb a -> isb b -> isb c -> isb d -> isb (X a b c d).
Proof. intros. unfold X. rewrite N.lxor_0_r. auto using xor_isb. Qed.
Lemma land_X a b c d : N.land (X a b c d) 0xff = X (N.land a 0xff) (N.land b 0xff) (N.land c 0xff) (N.land d 0xff).
Proof. unfold X. rewrite !N.lxor_0_r, !land_xor. reflexivity. Qed.
Lemma gmul_X k a b c d : isb a -> isb b -> isb c -> isb d -> gmul k (X a b c d) = X (gmul k a) (gmul k b) (gmul k c) (gmul k d).
Proof. intros. unfold X. rewrite !N.lxor_0_r. rewrite !gmul_xor by auto using xor_isb. reflexivity. Qed.
Lemma land_m01 b : N.land (m01 b) 0xff = m01 b.
Proof. unfold m01. rewrite <- N.land_assoc. reflexivity. Qed.
Lemma land_m03 b : N.land (m03 b) 0xff = m03 b.
Proof. unfold m03. rewrite <- N.land_assoc. reflexivity. Qed.
Definition mixv (k : list N) (r : nat) (b0 b1 b2 b3 : N) : N :=
  X (gmul (nth ((0 + 4 - r) mod 4) k 0) b0) (gmul (nth ((1 + 4 - r) mod 4) k 0) b1) (gmul (nth ((2 + 4 - r) mod 4) k 0) b2) (gmul (nth ((3 + 4 - r) mod 4) k 0) b3).
Lemma mix_make k f : mix k (make f) = make (fun r c => mixv k r (f 0%nat c) (f 1%nat c) (f 2%nat c) (f 3%nat c)).
Proof.
  unfold mix. apply make_same. intros r c Hr Hc. cbn [fold_right]. rewrite !at_make by lia. reflexivity.
Qed.
Lemma mixv_isb k r a b c d : isb a -> isb b -> isb c -> isb d -> isb (mixv k r a b c d).
Proof. intros. apply X_isb; apply gmul_isb; auto. Qed.
Lemma mixcolumn_st f : okf f -> mixcolumn (st f) = st (fun r c => mixv [2; 3; 1; 1] r (f 0%nat c) (f 1%nat c) (f 2%nat c) (f 3%nat c)).
Proof.
  intros Hf. unfold mixcolumn. rewrite mix_all; auto.
  - apply st_same. intros r c Hr Hc. rewrite !X_x4. unfold mixv.
    pose proof (Hf 0%nat c ltac:(lia) Hc). pose proof (Hf 1%nat c ltac:(lia) Hc). pose proof (Hf 2%nat c ltac:(lia) Hc). pose proof (Hf 3%nat c ltac:(lia) Hc).
    do 4 (destruct r as [|r]; [rewrite land_X, ?land_m01, ?land_m03, !m02_ok, !m01_ok, !m03_ok by auto; reflexivity|]). lia.
  - intros j a b c d _ _ _ _. apply land_isb.
Qed.
Lemma invmixcolumn_st f : okf f -> invmixcolumn (st f) = st (fun r c => mixv [0x0e; 0x0b; 0x0d; 0x09] r (f 0%nat c) (f 1%nat c) (f 2%nat c) (f 3%nat c)).
Proof.
  intros Hf. unfold invmixcolumn. rewrite mix_all; auto.
  - apply st_same. intros r c Hr Hc. rewrite !X_x4. unfold mixv.
    pose proof (Hf 0%nat c ltac:(lia) Hc). pose proof (Hf 1%nat c ltac:(lia) Hc). pose proof (Hf 2%nat c ltac:(lia) Hc). pose proof (Hf 3%nat c ltac:(lia) Hc).
    do 4 (destruct r as [|r]; [rewrite !m0e_ok, !m0b_ok, !m0d_ok, !m09_ok by auto; reflexivity|]). lia.
  - intros j a b c d _ _ _ _. rewrite !X_x4. destruct j as [|[|[|j]]]; apply X_isb; apply land_isb.
Qed.
Lemma bytesub_st f : okf f -> bytesub (st f) = st (fun r c => sub_byte (f r c)).
Proof.
  intros Hf. unfold bytesub. rewrite each_st; auto.
  - apply st_same. intros r c Hr Hc. apply sub_ok. auto.
  - intros i j b Hb. apply land_isb.
Qed.
Lemma invbytesub_st f : okf f -> invbytesub (st f) = st (fun r c => inv_sub_byte (f r c)).
Proof.
  intros Hf. unfold invbytesub. rewrite each_st; auto.
  - apply st_same. intros r c Hr Hc. apply rsub_ok. auto.
  - intros i j b Hb. apply land_isb.
Qed.
Lemma addroundkey_st w k f : okf f -> addroundkey w k (st f) = st (fun r c => N.lxor (f r c) (get (nth (k * 4 + c) w 0) r)).
Proof.
  intros Hf. unfold addroundkey. rewrite each_st; auto.
  intros i j b Hb. apply xor_isb; auto. apply land_isb.
Qed.

(** * Blocks *)
Definition okb (s : block) : Prop := okf (at_ s).
Lemma okb_make f : okf f -> okb (make f).
Proof. intros H r c Hr Hc. rewrite at_make by auto. auto. Qed.
Lemma okb_bytes s : Forall isb s -> (16 <= length s)%nat -> okb s.
Proof.
  intros H L r c Hr Hc. unfold at_. rewrite Forall_forall in H. apply H. apply nth_In. lia.
Qed.
Lemma make_len f : length (make f) = 16%nat.
Proof. reflexivity. Qed.
Lemma make_bytes f : okf f -> Forall isb (make f).
Proof. intros H. unfold make. cbn [flat_map map app]. repeat (constructor; [apply H; lia|]). constructor. Qed.

Lemma sub_bytes_st s : okb s -> bytesub (st (at_ s)) = st (at_ (sub_bytes s)).
Proof. intros H. rewrite bytesub_st by auto. apply st_same. intros r c Hr Hc. unfold sub_bytes. rewrite at_make by auto. reflexivity. Qed.
Lemma sub_bytes_ok s : okb s -> okb (sub_bytes s).
Proof. intros H. apply okb_make. intros r c Hr Hc. apply sub_isb. auto. Qed.
Lemma inv_sub_isb b : isb b -> isb (inv_sub_byte b).
Proof. intros H. rewrite <- rsub_ok by auto. apply land_isb. Qed.
Lemma inv_sub_bytes_st s : okb s -> invbytesub (st (at_ s)) = st (at_ (inv_sub_bytes s)).
Proof. intros H. rewrite invbytesub_st by auto. apply st_same. intros r c Hr Hc. unfold inv_sub_bytes. rewrite at_make by auto. reflexivity. Qed.
Lemma inv_sub_bytes_ok s : okb s -> okb (inv_sub_bytes s).
Proof. intros H. apply okb_make. intros r c Hr Hc. apply inv_sub_isb. auto. Qed.
Lemma mod4 n : (n mod 4 < 4)%nat.
Proof. apply Nat.mod_upper_bound. lia. Qed.
Lemma shift_rows_st s : okb s -> shiftrow (st (at_ s)) = st (at_ (shift_rows s)).
Proof. intros H. rewrite shift_st by auto. apply st_same. intros r c Hr Hc. unfold shift_rows. rewrite at_make by auto. reflexivity. Qed.
Lemma shift_rows_ok s : okb s -> okb (shift_rows s).
Proof. intros H. apply okb_make. intros r c Hr Hc. apply H; auto using mod4. Qed.
Lemma inv_shift_rows_st s : okb s -> invshiftrow (st (at_ s)) = st (at_ (inv_shift_rows s)).
Proof. intros H. rewrite invshift_st by auto. apply st_same. intros r c Hr Hc. unfold inv_shift_rows. rewrite at_make by auto. reflexivity. Qed.
Lemma inv_shift_rows_ok s : okb s -> okb (inv_shift_rows s).
Proof. intros H. apply okb_make. intros r c Hr Hc. apply H; auto using mod4. Qed.
Lemma mix_at k s : mix k s = make (fun r c => mixv k r (at_ s 0 c) (at_ s 1 c) (at_ s 2 c) (at_ s 3 c)).
Proof. reflexivity. Qed.
Lemma mix_ok k s : okb s -> okb (mix k s).
Proof. intros H. rewrite mix_at. apply okb_make. intros r c Hr Hc. apply mixv_isb; apply H; lia. Qed.
Lemma mix_columns_st s : okb s -> mixcolumn (st (at_ s)) = st (at_ (mix_columns s)).
Proof. intros H. rewrite mixcolumn_st by auto. apply st_same. intros r c Hr Hc. unfold mix_columns. rewrite mix_at, at_make by auto. reflexivity. Qed.
Lemma inv_mix_columns_st s : okb s -> invmixcolumn (st (at_ s)) = st (at_ (inv_mix_columns s)).
Proof. intros H. rewrite invmixcolumn_st by auto. apply st_same. intros r c Hr Hc. unfold inv_mix_columns. rewrite mix_at, at_make by auto. reflexivity. Qed.

(** Round key words. *)
Definition okw (l : word) : Prop := length l = 4%nat /\ Forall isb l.
Definition pack (l : word) : N := word4 (nth 0 l 0) (nth 1 l 0) (nth 2 l 0) (nth 3 l 0).
Lemma okw_isb l i : okw l -> isb (nth i l 0).
Proof.
  intros (L & F). destruct (Nat.lt_ge_cases i 4).
  - rewrite Forall_forall in F. apply F. apply nth_In. lia.
  - rewrite nth_overflow by lia. reflexivity.
Qed.
Lemma okw_cases l : okw l -> exists a b c d, l = [a; b; c; d] /\ isb a /\ isb b /\ isb c /\ isb d.
Proof.
  intros (L & F). destruct l as [|a [|b [|c [|d [|]]]]]; try discriminate.
  inversion F as [|? ? Fa F1]; inversion F1 as [|? ? Fb F2]; inversion F2 as [|? ? Fc F3]; inversion F3 as [|? ? Fd F4]; subst.
  exists a, b, c, d. auto.
Qed.
Lemma get_pack l r : okw l -> (r < 4)%nat -> get (pack l) r = nth r l 0.
Proof.
  intros H Hr. destruct (okw_cases l H) as (a & b & c & d & -> & Ha & Hb & Hc & Hd). unfold pack. cbn [nth]. apply get_word; auto.
Qed.
Definition keyed (w : list N) (ws : list word) : Prop := forall i, (i < length ws)%nat -> nth i w 0 = pack (nth i ws []) /\ okw (nth i ws []).
Lemma add_round_key_st w ws k s : keyed w ws -> (4 * k + 4 <= length ws)%nat -> okb s -> addroundkey w k (st (at_ s)) = st (at_ (add_round_key ws k s)).
Proof.
  intros K L H. rewrite addroundkey_st by auto. apply st_same. intros r c Hr Hc. unfold add_round_key. rewrite at_make by auto.
  destruct (K (4 * k + c)%nat ltac:(lia)) as (E & O). replace (k * 4 + c)%nat with (4 * k + c)%nat by lia. rewrite E, get_pack by auto. reflexivity.
Qed.
Lemma add_round_key_ok w ws k s : keyed w ws -> (4 * k + 4 <= length ws)%nat -> okb s -> okb (add_round_key ws k s).
Proof.
  intros K L H. apply okb_make. intros r c Hr Hc. apply xor_isb; auto. apply okw_isb. apply (K (4 * k + c)%nat). lia.
Qed.

Lemma rounds_up_S f round n s : rounds_up f round (S n) s = rounds_up f (S round) n (f round s).
Proof. reflexivity. Qed.
Lemma rounds_down_S f n s : rounds_down f (S n) s = rounds_down f n (f (S n) s).
Proof. reflexivity. Qed.
Definition E_ (ws : list word) (s : block) (round : nat) : block := add_round_key ws round (mix_columns (shift_rows (sub_bytes s))).
Definition D_ (ws : list word) (s : block) (round : nat) : block := inv_mix_columns (add_round_key ws round (inv_sub_bytes (inv_shift_rows s))).
Lemma enc_rounds_ok w ws : keyed w ws -> forall n k s, okb s -> (4 * (k + n) <= length ws)%nat ->
  enc_rounds w k n (st (at_ s)) = st (at_ (fold_left (E_ ws) (seq k n) s)) /\ okb (fold_left (E_ ws) (seq k n) s).
Proof.
  intros K. induction n as [|n IH]; intros k s H L; [split; auto|].
  unfold enc_rounds. rewrite rounds_up_S. fold (enc_rounds w). cbn [seq fold_left]. unfold enc_round.
  rewrite sub_bytes_st, shift_rows_st, mix_columns_st by auto using sub_bytes_ok, shift_rows_ok.
  assert (O : okb (mix_columns (shift_rows (sub_bytes s)))) by (apply mix_ok; auto using sub_bytes_ok, shift_rows_ok).
  rewrite (add_round_key_st w ws) by (auto; lia). apply IH; [|lia]. apply (add_round_key_ok w); auto; lia.
Qed.
Lemma seq_snoc k n : seq k (S n) = seq k n ++ [(k + n)%nat].
Proof. rewrite <- Nat.add_1_r, seq_app. reflexivity. Qed.
Lemma dec_rounds_ok w ws : keyed w ws -> forall n s, okb s -> (4 * (n + 1) <= length ws)%nat ->
  dec_rounds w n (st (at_ s)) = st (at_ (fold_left (D_ ws) (rev (seq 1 n)) s)) /\ okb (fold_left (D_ ws) (rev (seq 1 n)) s).
Proof.
  intros K. induction n as [|n IH]; intros s H L; [split; auto|].
  unfold dec_rounds. rewrite rounds_down_S, seq_snoc, rev_app_distr. fold (dec_rounds w). cbn [rev app fold_left]. unfold dec_round.
  rewrite inv_shift_rows_st, inv_sub_bytes_st by auto using inv_shift_rows_ok.
  assert (O1 : okb (inv_sub_bytes (inv_shift_rows s))) by auto using inv_sub_bytes_ok, inv_shift_rows_ok.
  rewrite (add_round_key_st w ws) by (auto; lia).
  assert (O2 : okb (add_round_key ws (S n) (inv_sub_bytes (inv_shift_rows s)))) by (apply (add_round_key_ok w); auto; lia).
  rewrite inv_mix_columns_st by auto. apply IH; [|lia]. apply mix_ok. exact O2.
Qed.
Lemma unload_st f : okf f -> unload (st f) = make f.
Proof. intros H. unfold unload, four. cbn [flat_map map app]. rewrite !get_st by (auto; lia). reflexivity. Qed.
Lemma unload_at s : okb s -> length s = 16%nat -> unload (st (at_ s)) = s.
Proof. intros H L. rewrite unload_st by auto. apply make_at. auto. Qed.
Lemma load_st text : Forall isb text -> (16 <= length text)%nat -> load text = st (at_ (firstn 16 text)).
Proof.
  intros H L. do 16 (destruct text as [|? text]; [cbn in L; lia|]).
  unfold load, four, row. cbn [fold_left upd nth Nat.add Nat.mul]. rewrite !N.lor_0_l.
  repeat match goal with H : Forall isb (_ :: _) |- _ => inversion H; clear H; subst end.
  rewrite !land_b by assumption.
  unfold st, four. cbn [map firstn]. unfold at_. cbn [nth Nat.add Nat.mul].
  unfold word4. change (pos 0) with 24. change (pos 1) with 16. change (pos 2) with 8. change (pos 3) with 0. rewrite !N.shiftl_0_r. reflexivity.
Qed.

(** * Key expansion *)
Lemma word4_xor a b c d a' b' c' d' : isb a -> isb b -> isb c -> isb d -> isb a' -> isb b' -> isb c' -> isb d' ->
  N.lxor (word4 a b c d) (word4 a' b' c' d') = word4 (N.lxor a a') (N.lxor b b') (N.lxor c c') (N.lxor d d').
Proof.
  intros. apply N.bits_inj. intros n. rewrite N.lxor_spec, !word4_bit by auto using xor_isb.
  destruct (n <? 8), (n <? 16), (n <? 24); rewrite N.lxor_spec; reflexivity.
Qed.
Lemma rotbyte_word a b c d : isb a -> isb b -> isb c -> isb d -> rotbyte (word4 a b c d) = word4 b c d a.
Proof.
  intros Ha Hb Hc Hd. unfold rotbyte. change (N.land (N.shiftr (word4 a b c d) 24) 0xff) with (get (word4 a b c d) 0). rewrite get_word by (auto; lia). cbn [nth].
  replace (u32 (N.shiftl (N.land (word4 a b c d) 0xffffff) 8)) with (u32 (N.shiftl (word4 a b c d) 8)).
  - rewrite word4_shl8 by auto. unfold word4. rewrite N.lor_0_r. apply N.lor_comm.
  - unfold u32. apply N.bits_inj. intros n. rewrite !N.land_spec, !shl_bit, !N.land_spec. change 0xffffff with (N.ones 24). change 0xffffffff with (N.ones 32).
    destruct (N.ltb_spec n 32).
    + destruct (N.leb_spec 8 n); cbn [andb]; [|reflexivity]. rewrite (N.ones_spec_low 24) by lia. rewrite andb_true_r. reflexivity.
    + rewrite (N.ones_spec_high 32) by lia. rewrite !andb_false_r. reflexivity.
Qed.
Lemma subbyte_word a b c d : isb a -> isb b -> isb c -> isb d -> subbyte (word4 a b c d) = word4 (sub_byte a) (sub_byte b) (sub_byte c) (sub_byte d).
Proof.
  intros Ha Hb Hc Hd. unfold subbyte. set (w := word4 a b c d).
  change (N.land (N.shiftr w 24) 0xff) with (get w 0). change (N.land (N.shiftr w 16) 0xff) with (get w 1). change (N.land (N.shiftr w 8) 0xff) with (get w 2).
  replace (N.land w 0xff) with (get w 3) by (unfold get; change (pos 3) with 0; rewrite N.shiftr_0_r; reflexivity).
  unfold w. rewrite !get_word by (auto; lia). cbn [nth]. rewrite !sub_ok by auto. unfold word4.
  apply N.bits_inj. intros n. rewrite !N.lor_spec. repeat (match goal with |- context [N.testbit ?x n] => destruct (N.testbit x n) end); reflexivity.
Qed.
Lemma rcon_ok i : (1 <= i <= 10)%nat -> nth i rcon 0 = pack (round_constant i) /\ okw (round_constant i).
Proof.
  intros H. do 11 (destruct i as [|i]; [first [lia | split; [vm_compute; reflexivity|split; [reflexivity|repeat constructor]]]|]). lia.
Qed.
Lemma pack_xor a b : okw a -> okw b -> N.lxor (pack a) (pack b) = pack (xor_word a b) /\ okw (xor_word a b).
Proof.
  intros Ha Hb. destruct (okw_cases a Ha) as (a0 & a1 & a2 & a3 & -> & ? & ? & ? & ?). destruct (okw_cases b Hb) as (b0 & b1 & b2 & b3 & -> & ? & ? & ? & ?).
  unfold pack. cbn [nth xor_word combine map fst snd]. split; [apply word4_xor; auto|]. split; [reflexivity|]. repeat constructor; auto using xor_isb.
Qed.
Lemma pack_sub a : okw a -> subbyte (pack a) = pack (map sub_byte a) /\ okw (map sub_byte a).
Proof.
  intros Ha. destruct (okw_cases a Ha) as (a0 & a1 & a2 & a3 & -> & ? & ? & ? & ?).
  unfold pack. cbn [nth map]. split; [apply subbyte_word; auto|]. split; [reflexivity|]. repeat constructor; auto using sub_isb.
Qed.
Lemma pack_rot a : okw a -> rotbyte (pack a) = pack (rot_word a) /\ okw (rot_word a).
Proof.
  intros Ha. destruct (okw_cases a Ha) as (a0 & a1 & a2 & a3 & -> & ? & ? & ? & ?).
  unfold pack. cbn [nth rot_word]. split; [apply rotbyte_word; auto|]. split; [reflexivity|]. repeat constructor; auto.
Qed.
Lemma expand_S nk code w i n : expand nk code w i (S n) =
  expand nk code (w ++ [N.lxor (nth (i - nk) w 0)
    (if (i mod nk =? 0)%nat then N.lxor (subbyte (rotbyte (nth (i - 1) w 0))) (nth (i / nk) rcon 0)
     else if (code =? 2) && (i mod nk =? 4)%nat then subbyte (nth (i - 1) w 0) else nth (i - 1) w 0)]) (S i) n.
Proof. reflexivity. Qed.
Lemma more_words_S nk ws n : more_words nk ws (S n) = more_words nk (ws ++ [next_word nk (length ws) ws]) n.
Proof. reflexivity. Qed.
Lemma expand_ok nk code nr : aes_size code nk nr -> forall n w ws, length w = length ws -> (nk <= length ws)%nat -> (length ws + n <= 4 * (nr + 1))%nat -> keyed w ws ->
  length (expand nk code w (length ws) n) = length (more_words nk ws n) /\ length (more_words nk ws n) = (length ws + n)%nat /\ keyed (expand nk code w (length ws) n) (more_words nk ws n).
Proof.
  intros SZ. induction n as [|n IH]; intros w ws L Lk Lr K.
  - split; [exact L|]. split; [symmetry; apply Nat.add_0_r|exact K].
  - rewrite expand_S, more_words_S.
    assert (Pk : (1 <= nk)%nat) by (destruct SZ; lia).
    destruct (K (length ws - 1)%nat ltac:(lia)) as (E1 & O1). destruct (K (length ws - nk)%nat ltac:(lia)) as (E2 & O2).
    assert (T : exists t, next_word nk (length ws) ws = xor_word (nth (length ws - nk) ws []) t /\ okw t /\
      (if (length ws mod nk =? 0)%nat then N.lxor (subbyte (rotbyte (nth (length ws - 1) w 0))) (nth (length ws / nk) rcon 0)
       else if (code =? 2) && (length ws mod nk =? 4)%nat then subbyte (nth (length ws - 1) w 0) else nth (length ws - 1) w 0) = pack t).
    { unfold next_word. rewrite E1. destruct (Nat.eqb_spec (length ws mod nk) 0) as [M|M].
      - destruct (pack_rot _ O1) as (R1 & R2). destruct (pack_sub _ R2) as (S1 & S2). 
        assert (Q : (1 <= length ws / nk <= 10)%nat).
        { split.
          - apply Nat.div_le_lower_bound; lia.
          - apply Nat.lt_succ_r. apply Nat.div_lt_upper_bound; [lia|]. destruct SZ; lia. }
        destruct (rcon_ok _ Q) as (C1 & C2). rewrite R1, S1, C1. destruct (pack_xor _ _ S2 C2) as (X1 & X2). rewrite X1.
        eexists. split; [reflexivity|]. split; [exact X2|reflexivity].
      - assert (B : (code =? 2) = (6 <? nk)%nat) by (destruct SZ; reflexivity). rewrite B.
        destruct ((6 <? nk)%nat && (length ws mod nk =? 4)%nat).
        + destruct (pack_sub _ O1) as (S1 & S2). rewrite S1. eexists. split; [reflexivity|]. split; [exact S2|reflexivity].
        + eexists. split; [reflexivity|]. split; [exact O1|reflexivity]. }
    destruct T as (t & T1 & T2 & T3). rewrite T3, E2, T1.
    destruct (pack_xor _ _ O2 T2) as (X1 & X2). rewrite X1.
    assert (L2 : length (ws ++ [xor_word (nth (length ws - nk) ws []) t]) = S (length ws)) by (rewrite app_length; cbn [length]; lia).
    destruct (IH (w ++ [pack (xor_word (nth (length ws - nk) ws []) t)]) (ws ++ [xor_word (nth (length ws - nk) ws []) t])) as (A & B & C).
    + rewrite !app_length. cbn [length]. lia.
    + rewrite L2. lia.
    + rewrite L2. lia.
    + intros i Hi. rewrite L2 in Hi. destruct (Nat.eq_dec i (length ws)) as [->|].
      * rewrite !app_nth2 by lia. rewrite L, Nat.sub_diag. cbn [nth]. split; auto.
      * rewrite !app_nth1 by lia. apply K. lia.
    + rewrite L2 in A, B, C. split; [exact A|]. split; [rewrite B; lia|exact C].
Qed.
Lemma key_word_ok key i : Forall isb key -> (4 * i + 3 < length key)%nat ->
  key_word key i = Some (pack [nth (4 * i) key 0; nth (4 * i + 1) key 0; nth (4 * i + 2) key 0; nth (4 * i + 3) key 0]) /\
  okw [nth (4 * i) key 0; nth (4 * i + 1) key 0; nth (4 * i + 2) key 0; nth (4 * i + 3) key 0].
Proof.
  intros F L. assert (B : forall j, (j < length key)%nat -> isb (nth j key 0)) by (intros j Hj; rewrite Forall_forall in F; apply F; apply nth_In; auto).
  split.
  - unfold key_word. rewrite !(nth_error_nth' key 0) by lia. cbn [obind]. rewrite !land_b by (apply B; lia). reflexivity.
  - split; [reflexivity|]. repeat constructor; apply B; lia.
Qed.
Lemma key_words_ok key : Forall isb key -> forall n i, (4 * (i + n) <= length key)%nat ->
  exists w, key_words key i n = Some w /\ let ws := map (fun i => [nth (4 * i) key 0; nth (4 * i + 1) key 0; nth (4 * i + 2) key 0; nth (4 * i + 3) key 0]) (seq i n) in
    length w = length ws /\ keyed w ws.
Proof.
  intros F. induction n as [|n IH]; intros i L.
  - exists []. split; [reflexivity|]. split; [reflexivity|]. intros j Hj. cbn in Hj. lia.
  - destruct (IH (S i) ltac:(lia)) as (w & E & Lw & K). destruct (key_word_ok key i F ltac:(lia)) as (E1 & O1).
    exists (pack [nth (4 * i) key 0; nth (4 * i + 1) key 0; nth (4 * i + 2) key 0; nth (4 * i + 3) key 0] :: w). split.
    + change (key_words key i (S n)) with (w <- key_word key i ;; r <- key_words key (S i) n ;; Some (w :: r)). rewrite E1. cbn [obind]. rewrite E. reflexivity.
    + cbn [seq]. rewrite map_cons. split; [cbn [length]; f_equal; exact Lw|].
      intros [|j] Hj; [split; [reflexivity|exact O1]|]. cbn [nth]. apply K. cbn [length] in Hj. lia.
Qed.
Lemma init_ok code nk nr key : aes_size code nk nr -> Forall isb key -> (4 * nk <= length key)%nat ->
  exists w, aes_init key code = Some (code, w) /\ length w = 60%nat /\ keyed w (key_expansion nk nr key) /\ length (key_expansion nk nr key) = (4 * (nr + 1))%nat.
Proof.
  intros SZ F L. unfold aes_init.
  assert (Z : sizes code = Some (nk, nr)) by (destruct SZ; reflexivity). rewrite Z. cbn [obind].
  destruct (key_words_ok key F nk 0 ltac:(lia)) as (w & E & Lw & K). rewrite E. cbn [obind].
  fold (first_words nk key) in Lw, K. cbv zeta in Lw, K.
  assert (Lf : length (first_words nk key) = nk) by (unfold first_words; rewrite map_length, seq_length; reflexivity).
  destruct (expand_ok nk code nr SZ (4 * (nr + 1) - nk) w (first_words nk key)) as (A & B & C); auto.
  { lia. }
  { destruct SZ; rewrite Lf; lia. }
  fold (key_expansion nk nr key) in A, B, C. rewrite Lf in A, B, C.
  replace ((nr + 1) * 4 - nk)%nat with (4 * (nr + 1) - nk)%nat by lia.
  set (w' := expand nk code w nk (4 * (nr + 1) - nk)) in *. clearbody w'.
  assert (L4 : length (key_expansion nk nr key) = (4 * (nr + 1))%nat) by (rewrite B; destruct SZ; lia).
  eexists. split; [reflexivity|]. split; [|split; auto].
  - rewrite app_length, repeat_length. destruct SZ; lia.
  - intros i Hi. rewrite app_nth1 by lia. apply C. auto.
Qed.

(** * The cipher *)
Lemma firstn_isb n l : Forall isb l -> Forall isb (firstn n l).
Proof. intros H. rewrite <- (firstn_skipn n l) in H. apply Forall_app in H. apply H. Qed.
Lemma skipn_isb n l : Forall isb l -> Forall isb (skipn n l).
Proof. intros H. rewrite <- (firstn_skipn n l) in H. apply Forall_app in H. apply H. Qed.
Lemma skipn_app_exact (A : Type) (a b : list A) : skipn (length a) (a ++ b) = b.
Proof. rewrite skipn_app, skipn_all, Nat.sub_diag. reflexivity. Qed.
Lemma firstn_app_exact (A : Type) (a b : list A) : firstn (length a) (a ++ b) = a.
Proof. rewrite firstn_app, firstn_all, Nat.sub_diag. apply app_nil_r. Qed.
Lemma add_len ws k s : length (add_round_key ws k s) = 16%nat.
Proof. reflexivity. Qed.
Lemma encrypt_ok code nk nr w ws text : aes_size code nk nr -> keyed w ws -> length ws = (4 * (nr + 1))%nat -> Forall isb text -> (16 <= length text)%nat ->
  aes_encrypt (code, w) text = Some (cipher nr ws (firstn 16 text) ++ skipn 16 text) /\ okb (cipher nr ws (firstn 16 text)).
Proof.
  intros SZ K Lw F L. unfold aes_encrypt. cbn [fst snd].
  assert (Z : sizes code = Some (nk, nr)) by (destruct SZ; reflexivity). rewrite Z. cbn [obind].
  destruct (Nat.ltb_spec (length text) 16); [lia|].
  assert (O0 : okb (firstn 16 text)).
  { apply okb_bytes; [apply firstn_isb; auto|rewrite firstn_length; lia]. }
  assert (Nr : (2 <= nr)%nat) by (destruct SZ; lia).
  rewrite load_st by auto. rewrite (add_round_key_st w ws) by (auto; lia).
  destruct (enc_rounds_ok w ws K (nr - 1) 1 (add_round_key ws 0 (firstn 16 text))) as (E1 & O1).
  { apply (add_round_key_ok w); auto; lia. }
  { lia. }
  rewrite E1, sub_bytes_st, shift_rows_st, (add_round_key_st w ws) by (auto using sub_bytes_ok, shift_rows_ok; lia).
  assert (O2 : okb (cipher nr ws (firstn 16 text))).
  { unfold cipher. apply (add_round_key_ok w); auto using sub_bytes_ok, shift_rows_ok; try lia. }
  split; [|exact O2]. rewrite unload_at; [reflexivity|exact O2|reflexivity].
Qed.
Lemma decrypt_ok code nk nr w ws text : aes_size code nk nr -> keyed w ws -> length ws = (4 * (nr + 1))%nat -> Forall isb text -> (16 <= length text)%nat ->
  aes_decrypt (code, w) text = Some (inv_cipher nr ws (firstn 16 text) ++ skipn 16 text).
Proof.
  intros SZ K Lw F L. unfold aes_decrypt. cbn [fst snd].
  assert (Z : sizes code = Some (nk, nr)) by (destruct SZ; reflexivity). rewrite Z. cbn [obind].
  destruct (Nat.ltb_spec (length text) 16); [lia|].
  assert (O0 : okb (firstn 16 text)).
  { apply okb_bytes; [apply firstn_isb; auto|rewrite firstn_length; lia]. }
  assert (Nr : (2 <= nr)%nat) by (destruct SZ; lia).
  rewrite load_st by auto. rewrite (add_round_key_st w ws) by (auto; lia).
  destruct (dec_rounds_ok w ws K (nr - 1) (add_round_key ws nr (firstn 16 text))) as (E1 & O1).
  { apply (add_round_key_ok w); auto; lia. }
  { lia. }
  rewrite E1, inv_shift_rows_st, inv_sub_bytes_st, (add_round_key_st w ws) by (auto using inv_sub_bytes_ok, inv_shift_rows_ok; lia).
  rewrite unload_at; [reflexivity| |reflexivity].
  apply (add_round_key_ok w); auto using inv_sub_bytes_ok, inv_shift_rows_ok; lia.
Qed.

(** * Deciphering *)
Lemma block_ext s t : length s = 16%nat -> length t = 16%nat -> same (at_ s) (at_ t) -> s = t.
Proof. intros Ls Lt H. rewrite <- (make_at s), <- (make_at t) by auto. apply make_same. exact H. Qed.
Lemma unshift s : length s = 16%nat -> inv_shift_rows (shift_rows s) = s.
Proof.
  intros L. apply block_ext; auto. intros r c Hr Hc. unfold inv_shift_rows, shift_rows. rewrite at_make by auto. rewrite at_make by auto using mod4.
  f_equal. do 4 (destruct r as [|r]; [do 4 (destruct c as [|c]; [reflexivity|]); lia|]). lia.
Qed.
Lemma unsub s : okb s -> length s = 16%nat -> inv_sub_bytes (sub_bytes s) = s.
Proof.
  intros H L. apply block_ext; auto. intros r c Hr Hc. unfold inv_sub_bytes, sub_bytes. rewrite !at_make by auto. apply inv_sub_sub. auto.
Qed.
Lemma unadd ws k s : length s = 16%nat -> add_round_key ws k (add_round_key ws k s) = s.
Proof.
  intros L. apply block_ext; auto. intros r c Hr Hc. unfold add_round_key. rewrite !at_make by auto. rewrite N.lxor_assoc, N.lxor_nilpotent. apply N.lxor_0_r.
Qed.
Definition kf : list N := [2; 3; 1; 1].
Definition ki : list N := [0x0e; 0x0b; 0x0d; 0x09].
(** The coefficient of row [j] in row [r] after both mixing steps. *)
Definition coef (r j : nat) (a : N) : N :=
  X (gmul (nth ((0 + 4 - r) mod 4) ki 0) (gmul (nth ((j + 4 - 0) mod 4) kf 0) a)) (gmul (nth ((1 + 4 - r) mod 4) ki 0) (gmul (nth ((j + 4 - 1) mod 4) kf 0) a))
    (gmul (nth ((2 + 4 - r) mod 4) ki 0) (gmul (nth ((j + 4 - 2) mod 4) kf 0) a)) (gmul (nth ((3 + 4 - r) mod 4) ki 0) (gmul (nth ((j + 4 - 3) mod 4) kf 0) a)).
Lemma coef_ok r j a : (r < 4)%nat -> (j < 4)%nat -> isb a -> coef r j a = if (r =? j)%nat then a else 0.
Proof.
  intros Hr Hj Ha. apply N.eqb_eq. revert a Ha.
  do 4 (destruct r as [|r]; [do 4 (destruct j as [|j]; [apply sweep_b; vm_compute; reflexivity|]); lia|]). lia.
Qed.
Lemma X_swap a1 b1 c1 d1 a2 b2 c2 d2 a3 b3 c3 d3 a4 b4 c4 d4 :
  X (X a1 b1 c1 d1) (X a2 b2 c2 d2) (X a3 b3 c3 d3) (X a4 b4 c4 d4) = X (X a1 a2 a3 a4) (X b1 b2 b3 b4) (X c1 c2 c3 c4) (X d1 d2 d3 d4).
Proof.
  unfold X at 1. rewrite N.lxor_0_r. rewrite !X_add. f_equal; unfold X; rewrite N.lxor_0_r; reflexivity.
Qed.
Lemma mixv_mixv r a b c d : (r < 4)%nat -> isb a -> isb b -> isb c -> isb d ->
  mixv ki r (mixv kf 0 a b c d) (mixv kf 1 a b c d) (mixv kf 2 a b c d) (mixv kf 3 a b c d) = nth r [a; b; c; d] 0.
Proof.
  intros Hr Ha Hb Hc Hd. unfold mixv. rewrite !gmul_X by (apply gmul_isb; auto). rewrite X_swap.
  change (X (coef r 0 a) (coef r 1 b) (coef r 2 c) (coef r 3 d) = nth r [a; b; c; d] 0).
  rewrite !coef_ok by (auto; lia). unfold X. rewrite N.lxor_0_r.
  do 4 (destruct r as [|r]; [cbn [nth Nat.eqb]; rewrite ?N.lxor_0_r, ?N.lxor_0_l; reflexivity|]). lia.
Qed.
Lemma unmix s : okb s -> length s = 16%nat -> inv_mix_columns (mix_columns s) = s.
Proof.
  intros H L. apply block_ext; auto. intros r c Hr Hc. unfold inv_mix_columns, mix_columns. rewrite !mix_at. rewrite !at_make by (auto; lia).
  change (mixv ki r (mixv kf 0 (at_ s 0 c) (at_ s 1 c) (at_ s 2 c) (at_ s 3 c)) (mixv kf 1 (at_ s 0 c) (at_ s 1 c) (at_ s 2 c) (at_ s 3 c))
    (mixv kf 2 (at_ s 0 c) (at_ s 1 c) (at_ s 2 c) (at_ s 3 c)) (mixv kf 3 (at_ s 0 c) (at_ s 1 c) (at_ s 2 c) (at_ s 3 c)) = at_ s r c).
  rewrite mixv_mixv by (auto; apply H; lia). do 4 (destruct r as [|r]; [reflexivity|]). lia.
Qed.
Lemma D_E w ws s k : keyed w ws -> (4 * k + 4 <= length ws)%nat -> okb s -> length s = 16%nat ->
  D_ ws (shift_rows (sub_bytes (E_ ws s k))) k = shift_rows (sub_bytes s).
Proof.
  intros K L H Ls. unfold D_, E_.
  assert (O1 : okb (mix_columns (shift_rows (sub_bytes s)))) by (apply mix_ok; auto using sub_bytes_ok, shift_rows_ok).
  rewrite unshift, unsub, unadd by (try reflexivity; apply (add_round_key_ok w); auto).
  apply unmix; [|reflexivity]. auto using sub_bytes_ok, shift_rows_ok.
Qed.
Lemma E_ok w ws s k : keyed w ws -> (4 * k + 4 <= length ws)%nat -> okb s -> okb (E_ ws s k).
Proof. intros K L H. apply (add_round_key_ok w); auto. apply mix_ok. auto using sub_bytes_ok, shift_rows_ok. Qed.
Lemma fold_keeps (B : Type) (E : B -> nat -> B) (P : B -> Prop) (Q : nat -> Prop) : (forall s k, P s -> Q k -> P (E s k)) ->
  forall l s, Forall Q l -> P s -> P (fold_left E l s).
Proof.
  intros H. induction l as [|k l IH]; intros s F Ps; auto. inversion F; subst. cbn [fold_left]. apply IH; auto.
Qed.
Lemma fold_undo (B : Type) (E D : B -> nat -> B) (S_ : B -> B) (P : B -> Prop) (Q : nat -> Prop) : (forall s k, P s -> Q k -> P (E s k)) ->
  (forall s k, P s -> Q k -> D (S_ (E s k)) k = S_ s) -> forall l s, Forall Q l -> P s -> fold_left D (rev l) (S_ (fold_left E l s)) = S_ s.
Proof.
  intros HE HD. induction l as [|k l IH] using rev_ind; intros s F Ps; [reflexivity|].
  apply Forall_app in F as (F1 & F2). inversion F2; subst.
  rewrite fold_left_app, rev_app_distr. cbn [rev app fold_left]. rewrite HD; auto. apply (fold_keeps B E P Q); auto.
Qed.
Definition okl (s : block) : Prop := okb s /\ length s = 16%nat.
Lemma fold_E_ok w ws l s : keyed w ws -> Forall (fun k => (4 * k + 4 <= length ws)%nat) l -> okl s -> okl (fold_left (E_ ws) l s).
Proof.
  intros K. apply (fold_keeps block (E_ ws) okl (fun k => (4 * k + 4 <= length ws)%nat)).
  intros s' k (O & L) Q. split; [apply (E_ok w); auto|apply add_len].
Qed.
Lemma fold_D_E w ws l s : keyed w ws -> Forall (fun k => (4 * k + 4 <= length ws)%nat) l -> okl s ->
  fold_left (D_ ws) (rev l) (shift_rows (sub_bytes (fold_left (E_ ws) l s))) = shift_rows (sub_bytes s).
Proof.
  intros K. apply (fold_undo block (E_ ws) (D_ ws) (fun s => shift_rows (sub_bytes s)) okl (fun k => (4 * k + 4 <= length ws)%nat)).
  - intros s' k (O & L) Q. split; [apply (E_ok w); auto|apply add_len].
  - intros s' k (O & L) Q. apply (D_E w); auto.
Qed.
Lemma shift_len s : length (shift_rows s) = 16%nat.
Proof. reflexivity. Qed.
Lemma sub_len s : length (sub_bytes s) = 16%nat.
Proof. reflexivity. Qed.
Lemma cipher_eq nr ws s : cipher nr ws s = add_round_key ws nr (shift_rows (sub_bytes (fold_left (E_ ws) (seq 1 (nr - 1)) (add_round_key ws 0 s)))).
Proof. reflexivity. Qed.
Lemma inv_cipher_eq nr ws s : inv_cipher nr ws s = add_round_key ws 0 (inv_sub_bytes (inv_shift_rows (fold_left (D_ ws) (rev (seq 1 (nr - 1))) (add_round_key ws nr s)))).
Proof. reflexivity. Qed.
Lemma inv_cipher_cipher w ws nr s : keyed w ws -> length ws = (4 * (nr + 1))%nat -> (2 <= nr)%nat -> okb s -> length s = 16%nat -> inv_cipher nr ws (cipher nr ws s) = s.
Proof.
  intros K L Nr H Ls. rewrite cipher_eq, inv_cipher_eq.
  assert (Fs : Forall (fun k => (4 * k + 4 <= length ws)%nat) (seq 1 (nr - 1))) by (apply Forall_forall; intros k Hk; apply in_seq in Hk; lia).
  assert (O0 : okl (add_round_key ws 0 s)) by (split; [apply (add_round_key_ok w); auto; lia|apply add_len]).
  rewrite unadd by apply shift_len. rewrite (fold_D_E w) by auto. destruct O0 as (O0 & L0).
  rewrite unshift by apply sub_len. rewrite unsub by auto. apply unadd. exact Ls.
Qed.
Lemma cipher_eq_len nr ws s : length (cipher nr ws s) = 16%nat.
Proof. rewrite cipher_eq. apply add_len. Qed.

Lemma aes_standard_lemma code nk nr key text : aes_size code nk nr -> Forall isb key -> length key = (4 * nk)%nat -> Forall isb text -> length text = 16%nat ->
  exists a, aes_init key code = Some a /\ aes_encrypt a text = Some (cipher nr (key_expansion nk nr key) text) /\
    aes_decrypt a text = Some (inv_cipher nr (key_expansion nk nr key) text).
Proof.
  intros SZ Fk Lk Ft Lt. destruct (init_ok code nk nr key SZ Fk ltac:(lia)) as (w & E & L & K & Ls).
  exists (code, w). split; [exact E|].
  assert (F1 : firstn 16 text = text) by (apply firstn_all2; lia). assert (F2 : skipn 16 text = []) by (apply skipn_all2; lia).
  destruct (encrypt_ok code nk nr w _ text SZ K Ls Ft ltac:(lia)) as (E1 & O1).
  pose proof (decrypt_ok code nk nr w _ text SZ K Ls Ft ltac:(lia)) as E2.
  rewrite F1, F2, app_nil_r in E1, E2. split; [exact E1|exact E2].
Qed.
Lemma okb_forall s : okb s -> length s = 16%nat -> Forall isb s.
Proof. intros H L. rewrite <- (make_at s L). apply make_bytes. exact H. Qed.
Lemma aes_back_lemma code nk nr key text : aes_size code nk nr -> Forall isb key -> (4 * nk <= length key)%nat -> Forall isb text -> (16 <= length text)%nat ->
  exists a c, aes_init key code = Some a /\ aes_encrypt a text = Some c /\ length c = length text /\ skipn 16 c = skipn 16 text /\ aes_decrypt a c = Some text.
Proof.
  intros SZ Fk Lk Ft Lt. destruct (init_ok code nk nr key SZ Fk Lk) as (w & E & L & K & Ls).
  destruct (encrypt_ok code nk nr w _ text SZ K Ls Ft Lt) as (E1 & O1).
  set (ws := key_expansion nk nr key) in *. clearbody ws. set (c := cipher nr ws (firstn 16 text)) in *.
  assert (Lc : length c = 16%nat) by apply cipher_eq_len.
  assert (Fc : Forall isb c) by (apply okb_forall; auto).
  exists (code, w), (c ++ skipn 16 text). split; [exact E|]. split; [exact E1|].
  split; [rewrite app_length, skipn_length; lia|].
  assert (S1 : skipn 16 (c ++ skipn 16 text) = skipn 16 text) by (rewrite <- Lc at 1; apply skipn_app_exact).
  assert (S2 : firstn 16 (c ++ skipn 16 text) = c) by (rewrite <- Lc at 1; apply firstn_app_exact).
  split; [exact S1|].
  rewrite (decrypt_ok code nk nr w ws); auto; [|apply Forall_app; split; auto; apply skipn_isb; auto|rewrite app_length; lia].
  rewrite S1, S2. unfold c. rewrite (inv_cipher_cipher w); auto.
  - rewrite firstn_skipn. reflexivity.
  - destruct SZ; lia.
  - apply okb_bytes; [apply firstn_isb; auto|rewrite firstn_length; lia].
  - rewrite firstn_length; lia.
Qed.
Lemma aes_refuses_lemma key code : 2 < code -> aes_init key code = None.
Proof.
  intros H. unfold aes_init. assert (sizes code = None) as ->; [|reflexivity].
  destruct code as [|[[|p|]|[|p|]|]]; cbn; try reflexivity; lia.
Qed.

Require Import List Arith NArith ZArith Lia Bool.
Require Import ZifyBool ZifyNat ZifyN.
Require Import Verif.Base Verif.BnModel Verif.BnSpec Verif.EndianProofs Verif.BnLimbProofs Verif.BnShiftProofs Verif.BnTextModel Verif.BnTextSpec Verif.BnTextProofs.
Import ListNotations.
Open Scope N_scope.

Lemma dig8 c v : dig 8 c = Some v -> 48 <= c <= 55 /\ v = c - 48.
Proof.
  unfold dig, digit_of. destruct (N.leb_spec 48 c), (N.leb_spec c 57); cbn [andb].
  1: destruct (N.ltb_spec (c - 48) 8); intros E; [injection E as <-; lia|discriminate].
  all: destruct (N.leb_spec 97 c), (N.leb_spec c 102); cbn [andb]; try (destruct (N.ltb_spec (c - 87) 8); [lia|discriminate]).
  all: destruct (N.leb_spec 65 c), (N.leb_spec c 70); cbn [andb]; try (destruct (N.ltb_spec (c - 55) 8); [lia|discriminate]); discriminate.
Qed.

Lemma oct_byte2 a v : a < 8 -> v < 8 -> N.lor (N.land a 7) (N.land (N.shiftl v 3) 56) = a + 8 * v.
Proof.
  intros Ha Hv. change 7 with (N.ones 3). change 56 with (N.shiftl (N.ones 3) 3). rewrite <- N.shiftl_land, !N.land_ones.
  change (2 ^ 3) with 8. rewrite !N.mod_small by auto. rewrite N.shiftl_mul_pow2, N.lor_comm, (lor_add (v * 2 ^ 3) a 3); [change (2 ^ 3) with 8; lia|exact Ha|].
  apply N.mod_mul. apply pow2_nz.
Qed.
Lemma oct_byte3 a v : a < 64 -> v < 4 -> N.lor a (N.land (N.shiftl v 6) 192) = a + 64 * v.
Proof.
  intros Ha Hv. change 192 with (N.shiftl (N.ones 2) 6). rewrite <- N.shiftl_land, N.land_ones.
  change (2 ^ 2) with 4. rewrite N.mod_small by auto. rewrite N.shiftl_mul_pow2, N.lor_comm, (lor_add (v * 2 ^ 6) a 6); [change (2 ^ 6) with 64; lia|exact Ha|].
  apply N.mod_mul. apply pow2_nz.
Qed.

Lemma in_range c v top : dig 8 c = Some v -> v + 48 <= top -> (c <? 48) || (top <? c) = false.
Proof. intros E H. apply dig8 in E. destruct E as [E ->]. lia. Qed.

Lemma oct_put b : b < 256 -> exists tmp l j, put_byte (zeros SIZE) 0 0 b = Some (tmp, l, j) /\ length tmp = SIZE /\ limbs tmp /\ val tmp = b.
Proof.
  intros Hb. destruct (put_byte_ok (zeros SIZE) 0 b) as (tmp & E & S' & L' & V' & _);
    [apply zeros_length|apply limbs_zeros|lia|exact Hb|rewrite val_zeros; reflexivity|].
  change (0 / 4) with 0 in E. change (0 mod 4) with 0 in E. exists tmp. eexists. eexists. split; [exact E|]. split; auto. split; auto.
  rewrite V', val_zeros. change (256 ^ 0) with 1. lia.
Qed.

Lemma oct_loop_small ds n : (length ds <= 3)%nat -> nle 8 ds = Some n -> n < 256 ->
  exists tmp, oct_loop ds 0 0 0 0 (zeros SIZE) = Some (Some tmp) /\ length tmp = SIZE /\ limbs tmp /\ val tmp = n.
Proof.
  intros Hl E Hn. destruct ds as [|a [|b [|c [|]]]]; [| | | |cbn in Hl; lia]; cbn [nle] in E.
  - injection E as <-. exists (zeros SIZE). split; [reflexivity|]. split; [apply zeros_length|]. split; [apply limbs_zeros|]. apply val_zeros.
  - destruct (dig 8 a) as [va|] eqn:Ea; [|discriminate]. assert (Q : n = va + 8 * 0) by congruence. clear E. rewrite Q in *. clear Q. pose proof (dig8 _ _ Ea) as [Ra Va].
    cbn [oct_loop]. change (0 mod 3 =? 2) with false. change (0 mod 3 =? 0) with true. cbv iota.
    rewrite (in_range a va 55 Ea) by lia. cbn [orb]. rewrite <- Va. change 7 with (N.ones 3). rewrite N.land_ones, N.mod_small by (change (2 ^ 3) with 8; lia).
    destruct (oct_put va) as (tmp & l & j & E & S' & L' & V'); [lia|]. rewrite E. cbn [obind]. exists tmp. split; [reflexivity|]. split; [exact S'|]. split; [exact L'|].
    rewrite V'. lia.
  - destruct (dig 8 a) as [va|] eqn:Ea; [|discriminate]. destruct (dig 8 b) as [vb|] eqn:Eb; [|discriminate]. assert (Q : n = va + 8 * (vb + 8 * 0)) by congruence. clear E. rewrite Q in *. clear Q.
    pose proof (dig8 _ _ Ea) as [Ra Va]. pose proof (dig8 _ _ Eb) as [Rb Vb].
    cbn [oct_loop]. change (0 mod 3 =? 2) with false. change (0 mod 3 =? 0) with true. cbv iota.
    rewrite (in_range a va 55 Ea) by lia. cbn [orb]. rewrite <- Va.
    change (0 + 1) with 1. change (1 mod 3 =? 2) with false. change (1 mod 3 =? 0) with false. change (1 mod 3 =? 1) with true. cbv iota.
    rewrite (in_range b vb 55 Eb) by lia. cbn [orb]. rewrite <- Vb. rewrite oct_byte2 by lia.
    destruct (oct_put (va + 8 * vb)) as (tmp & l & j & E & S' & L' & V'); [lia|]. rewrite E. cbn [obind]. exists tmp. split; [reflexivity|]. split; [exact S'|]. split; [exact L'|].
    rewrite V'. lia.
  - destruct (dig 8 a) as [va|] eqn:Ea; [|discriminate]. destruct (dig 8 b) as [vb|] eqn:Eb; [|discriminate].
    destruct (dig 8 c) as [vc|] eqn:Ec; [|discriminate]. assert (Q : n = va + 8 * (vb + 8 * (vc + 8 * 0))) by congruence. clear E. rewrite Q in *. clear Q.
    pose proof (dig8 _ _ Ea) as [Ra Va]. pose proof (dig8 _ _ Eb) as [Rb Vb]. pose proof (dig8 _ _ Ec) as [Rc Vc].
    cbn [oct_loop]. change (0 mod 3 =? 2) with false. change (0 mod 3 =? 0) with true. cbv iota.
    rewrite (in_range a va 55 Ea) by lia. cbn [orb]. rewrite <- Va.
    change (0 + 1) with 1. change (1 mod 3 =? 2) with false. change (1 mod 3 =? 0) with false. change (1 mod 3 =? 1) with true. cbv iota.
    rewrite (in_range b vb 55 Eb) by lia. cbn [orb]. rewrite <- Vb. rewrite oct_byte2 by lia.
    change (1 + 1) with 2. change (2 mod 3 =? 2) with true. change (2 mod 3 =? 0) with false. change (2 mod 3 =? 1) with false. cbv iota.
    rewrite (in_range c vc 51 Ec) by lia. cbn [orb]. rewrite <- Vc. rewrite oct_byte3 by lia.
    destruct (oct_put (va + 8 * vb + 64 * vc)) as (tmp & l & j & E & S' & L' & V'); [lia|]. rewrite E. cbn [obind]. exists tmp. split; [reflexivity|]. split; [exact S'|]. split; [exact L'|].
    rewrite V'. lia.
Qed.

Lemma assign_octal minus s n : (length s <= 3)%nat -> numeral 8 0 s = Some n -> n < 256 ->
  exists r, bn_assign (sign_text minus ++ 48 :: s) = Some (Some r) /\ wf r /\ value r = signed minus n.
Proof.
  intros Hs E Hn. destruct (assign_sign minus (48 :: s) eq_refl) as [E1 E2].
  unfold bn_assign. rewrite E1, E2. cbn [nth N.eqb Pos.eqb].
  assert (E3 : (nth 0 s 0 =? 120) = false).
  { destruct s as [|c s]; [reflexivity|]. cbn [nth]. cbn [numeral] in E. unfold digit_of in E. destruct (N.eqb_spec c 120) as [->|]; [discriminate|reflexivity]. }
  rewrite E3. cbn [skipn]. unfold assign_oct. change (BITS / 3) with 2741. rewrite (proj2 (N.ltb_ge _ _)) by lia.
  rewrite numeral_nle in E. destruct (oct_loop_small (rev s) n) as (tmp & Et & S' & L' & V'); auto; [rewrite rev_length; exact Hs|].
  rewrite Et. cbn [obind]. destruct (top_size minus tmp S' L') as (k & Ek & W). rewrite Ek. cbn [obind].
  eexists. split; [reflexivity|]. split; [apply wf_wfp; exact W|]. unfold value, signed, mag. cbn [neg dat]. rewrite V'. reflexivity.
Qed.

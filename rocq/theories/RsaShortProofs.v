(** What a modulus does that is short for the number of its limbs, refused inputs, and the length of generated keys. *)
Require Import List Arith NArith ZArith Lia Bool Znumtheory.
Require Import ZifyBool ZifyNat ZifyN.
Require Import Verif.Base Verif.EndianSpec Verif.EndianProofs Verif.BnModel Verif.BnSpec Verif.BnLimbProofs Verif.BnAddProofs
  Verif.BnTextModel Verif.BnTextProofs Verif.BnStringProofs Verif.BnPrimeModel Verif.BnPrimeSpec Verif.BnPrimeProofs
  Verif.RsaModel Verif.RsaSpec Verif.RsaProofs Verif.RsaBlockProofs Verif.RsaKeyProofs.
Import ListNotations.
Open Scope N_scope.

Lemma octets_ok k n x p q : good k n x p q -> octets n (N.of_nat (nlen k)).
Proof.
  intros G. pose proof (nlen_bounds _ _ _ _ _ G) as NB. destruct G as [Hk Pp Pq Dpq En Gp Gq F X Xp Xq].
  destruct (key_n k n x p q Hk En Gp Gq F) as (Wn & Nn & Mn & Ln). unfold nlen in *. exists (N.of_nat (len (k_n k))).
  split; [clear; lia|]. split; [|clear - NB; lia].
  pose proof (mag_lt _ Wn) as M1. pose proof (mag_ge _ Wn ltac:(clear - NB; lia)) as M2. rewrite Mn, P_pow in *. split; [|exact M1].
  replace (32 * (N.of_nat (len (k_n k)) - 1)) with (32 * N.of_nat (len (k_n k) - 1)) by (clear - NB; lia). exact M2.
Qed.

Lemma octets_unique n a b : octets n a -> octets n b -> a = b.
Proof.
  intros (l & -> & [L1 L2] & L0) (m & -> & [M1 M2] & M0). f_equal.
  assert (H : forall x y, 2 ^ (32 * (x - 1)) <= n -> n < 2 ^ (32 * y) -> x <= y).
  { intros x y X Y. destruct (N.le_gt_cases x y) as [|G]; [assumption|exfalso].
    assert (2 ^ (32 * y) <= 2 ^ (32 * (x - 1))) by (apply N.pow_le_mono_r; [discriminate|lia]). lia. }
  apply N.le_antisymm; apply H; assumption.
Qed.

Lemma cons2_value a b r : be_value (a :: b :: r) = a * 256 ^ (N.of_nat (length r) + 1) + b * 256 ^ N.of_nat (length r) + be_value r.
Proof. cbn [be_value length]. replace (N.of_nat (S (length r))) with (N.of_nat (length r) + 1) by lia. lia. Qed.

(** The second byte of a block is below two when the modulus is below two times that byte's weight. *)
Lemma short_block out n : be_value out < n -> n < 2 * 256 ^ N.of_nat (length out - 2) -> (2 <= length out)%nat ->
  exists b r, out = 0 :: b :: r /\ b < 2.
Proof.
  intros V Sh L. destruct out as [|a [|b r]]; [cbn [length] in L; lia|cbn [length] in L; lia|]. rewrite cons2_value in V. cbn [length] in Sh.
  replace (S (S (length r)) - 2)%nat with (length r) in Sh by lia. rewrite N.add_1_r, N.pow_succ_r' in V.
  assert (Q : 0 < 256 ^ N.of_nat (length r)) by (apply N.neq_0_lt_0, N.pow_nonzero; discriminate). revert V Sh Q. generalize (256 ^ N.of_nat (length r)). intros w V Sh Q.
  assert (a = 0) by nia. subst a. exists b, r. split; [reflexivity|]. nia.
Qed.

Lemma anti_public_short out behind b r : out = 0 :: b :: r -> b < 2 -> anti_padding_public out behind = Some None.
Proof. intros -> B. unfold anti_padding_public. cbn [N.eqb negb]. destruct (N.eqb_spec b 2) as [->|]; [lia|reflexivity]. Qed.

Lemma decrypt_one_none k anti behind c out : length c = nlen k -> (12 <= nlen k)%nat ->
  crypt_block k c = Some (Some out) -> anti out behind = Some None ->
  decrypt k anti behind c = Some (out, None).
Proof.
  intros L H E A. unfold decrypt. rewrite L, (proj2 (Nat.ltb_ge _ _)) by lia. rewrite (proj2 (Nat.eqb_neq _ _)) by lia.
  rewrite Nat.mod_same by lia. cbn [Nat.eqb negb]. destruct c as [|c0 c]; [cbn [length] in L; lia|]. rewrite <- L. cbn [length decrypt_blocks].
  rewrite <- L in *. rewrite firstn_all, skipn_all. rewrite E. cbn [obind app]. rewrite A. cbn [obind]. rewrite app_nil_r. reflexivity.
Qed.

Lemma short_modulus pub pri n e d p q m ds behind c ds' : keys pub pri n e d p q -> n < 2 * 256 ^ N.of_nat (nlen pub - 2) ->
  bytes m -> m <> [] -> public_encrypt pub ds m = Some (Some c, ds') -> exists c', private_decrypt pri behind c = Some (c', None).
Proof.
  intros K S B M E. destruct (keys_good _ _ _ _ _ _ _ K) as [G G'].
  assert (NL : nlen pub = nlen pri) by (apply (nlen_eq pub pri n e d p q); [apply G|apply G']).
  pose proof (nlen_bounds _ _ _ _ _ G) as NB. unfold public_encrypt in E. destruct (room pub <? N.of_nat (length m)); [discriminate|].
  destruct m as [|m0 m]; [contradiction|]. set (mm := m0 :: m) in *. unfold pub_padding in E.
  destruct (Nat.ltb_spec (nlen pub) (length mm + 3)) as [|L]; [discriminate|].
  destruct (pad_bytes (length ds) (nlen pub - length mm - 3) ds) as [[ps ds1]|] eqn:P; [|discriminate]. cbn [obind fst snd] in E.
  destruct (pad_bytes_sound _ _ _ _ _ P) as (Lp & Bp & _).
  set (block := [0; 2] ++ ps ++ [0] ++ mm) in *.
  assert (Lb : length block = nlen pub) by (unfold block; rewrite !app_length; cbn [length]; clear - L Lp; lia).
  assert (Bb : bytes block).
  { unfold block. apply Forall_app; split; [repeat constructor|]. apply Forall_app; split; [exact Bp|]. apply Forall_app; split; [repeat constructor|exact B]. }
  destruct (crypt_ok pub n e p q block G Bb Lb) as (out & Eo & Lo & Bo & _). rewrite Eo in E. cbn [obind] in E. injection E as <- <-.
  destruct (crypt_ok pri n d p q out G' Bo ltac:(clear - Lo NL; lia)) as (o2 & E2 & L2 & B2 & V2).
  exists o2. apply decrypt_one_none; [clear - Lo NL; lia|clear - NB NL; lia|exact E2|].
  destruct (short_block o2 n) as (b & r & Er & Hb).
  - rewrite V2. apply N.mod_lt. rewrite (gd_n _ _ _ _ _ G). apply N.neq_mul_0. split; [pose proof (gd_lp _ _ _ _ _ G) as H|pose proof (gd_lq _ _ _ _ _ G) as H]; clear - H; lia.
  - rewrite L2, <- NL. exact S.
  - rewrite L2. clear - NB NL. lia.
  - apply (anti_public_short _ _ _ _ Er Hb).
Qed.

Lemma too_long_public pub pri n e d p q m ds : keys pub pri n e d p q -> (nlen pub < length m + 11)%nat -> public_encrypt pub ds m = Some (None, ds).
Proof.
  intros K L. destruct (keys_good _ _ _ _ _ _ _ K) as [G G']. pose proof (nlen_bounds _ _ _ _ _ G) as NB.
  unfold public_encrypt. rewrite room_ok by (clear - NB; lia). rewrite (proj2 (N.ltb_lt _ _)) by (clear - L NB; lia). reflexivity.
Qed.
Lemma too_long_private pub pri n e d p q m : keys pub pri n e d p q -> (nlen pri < length m + 11)%nat -> private_encrypt pri m = Some None.
Proof.
  intros K L. destruct (keys_good _ _ _ _ _ _ _ K) as [G G']. pose proof (nlen_bounds _ _ _ _ _ G') as NB.
  unfold private_encrypt. rewrite room_ok by (clear - NB; lia). rewrite (proj2 (N.ltb_lt _ _)) by (clear - L NB; lia). reflexivity.
Qed.

Lemma pow256 k : 256 ^ N.of_nat k = 2 ^ (8 * N.of_nat k).
Proof. change 256 with (2 ^ 8). rewrite <- N.pow_mul_r. reflexivity. Qed.

(** The number of octets when [bits] is a multiple of the limb size. *)
Lemma nlen_full k n x p q l : good k n x p q -> 2 ^ (32 * l - 1) <= n -> n < 2 ^ (32 * l) -> 1 <= l -> N.of_nat (nlen k) = 4 * l.
Proof.
  intros G L1 L2 L0. apply (octets_unique n); [apply (octets_ok _ _ _ _ _ G)|]. exists l. split; [reflexivity|]. split; [|exact L0]. split; [|exact L2].
  eapply N.le_trans; [|exact L1]. apply N.pow_le_mono_r; [discriminate|lia].
Qed.
Lemma full_room k n x p q l : good k n x p q -> 2 ^ (32 * l - 1) <= n -> n < 2 ^ (32 * l) -> 1 <= l -> 3 * 256 ^ N.of_nat (nlen k - 2) <= n.
Proof.
  intros G L1 L2 L0. pose proof (nlen_full _ _ _ _ _ _ G L1 L2 L0) as NL. eapply N.le_trans; [|exact L1].
  rewrite pow256. apply N.le_trans with (2 ^ 2 * 2 ^ (8 * N.of_nat (nlen k - 2))); [apply N.mul_le_mono_r; discriminate|].
  rewrite <- N.pow_add_r. apply N.pow_le_mono_r; [discriminate|]. clear - NL L0. lia.
Qed.
Lemma over_short k n x p q l : good k n x p q -> 2 ^ (32 * l) <= n -> n < 2 ^ (32 * l + 1) -> n < 2 * 256 ^ N.of_nat (nlen k - 2).
Proof.
  intros G L1 L2. assert (NL : N.of_nat (nlen k) = 4 * (l + 1)).
  { apply (octets_unique n); [apply (octets_ok _ _ _ _ _ G)|]. exists (l + 1). split; [reflexivity|]. split; [|lia]. split.
    - replace (l + 1 - 1) with l by lia. exact L1.
    - eapply N.lt_le_trans; [exact L2|]. apply N.pow_le_mono_r; [discriminate|lia]. }
  eapply N.lt_le_trans; [exact L2|]. rewrite pow256. change 2 with (2 ^ 1) at 2. rewrite <- N.pow_add_r. apply N.pow_le_mono_r; [discriminate|]. clear - NL. lia.
Qed.

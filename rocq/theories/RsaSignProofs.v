(** Signatures: encoding of the digest, signing and verifying. *)
Require Import List NArith ZArith Bool Lia Znumtheory Arith.
Require Import ZifyBool ZifyNat ZifyN.
Import ListNotations.
Require Import Verif.Base Verif.BnModel Verif.BnSpec Verif.BnProofs Verif.EndianSpec Verif.EndianProofs Verif.DigestModel Verif.DigestSpec Verif.DigestProofs.
Require Import Verif.Asn1Model Verif.Asn1Spec Verif.Asn1Proofs Verif.Asn1EncProofs.
Require Import Verif.RsaModel Verif.RsaSpec Verif.RsaProofs Verif.RsaBlockProofs.
Local Open Scope N_scope.

Definition hlen (h : hash) : nat := match h with MD5 => 16 | SHA1 => 20 | SHA256 => 32 end.

Lemma digest_len h m : length (digest h m) = hlen h.
Proof.
  destruct h; unfold digest, md5, sha1, sha256;
  match goal with |- context [fold_left ?f ?l ?i] => generalize (fold_left f l i) end;
  intros s; [destruct s as [[[? ?] ?] ?]|destruct s as [[[[? ?] ?] ?] ?]|destruct s as [[[[? ?] ?] ?] [[[? ?] ?] ?]]]; reflexivity.
Qed.

Lemma digest_bytes h m : bytes (digest h m).
Proof.
  assert (Hl : forall x, bytes (bytes_le 4 x)).
  { intros x. unfold bytes_le. apply Forall_forall. intros y Hy. apply in_map_iff in Hy. destruct Hy as (i & <- & _). apply N.mod_lt. discriminate. }
  assert (Hb : forall x, bytes (bytes_be 4 x)) by (intros x; unfold bytes_be; apply Forall_rev, Hl).
  destruct h; unfold digest, md5, sha1, sha256;
  match goal with |- context [fold_left ?f ?l ?i] => generalize (fold_left f l i) end;
  intros s; [destruct s as [[[? ?] ?] ?]|destruct s as [[[[? ?] ?] ?] ?]|destruct s as [[[[? ?] ?] ?] [[[? ?] ?] ?]]]; cbn [flat_map];
  repeat (apply Forall_app; split; [first [apply Hl|apply Hb]|]); apply Forall_nil.
Qed.

Lemma put_all out d n : length d = n -> firstn n (put out d n) = d.
Proof.
  intros <-. unfold put. rewrite firstn_all. rewrite firstn_app, Nat.sub_diag, firstn_all. cbn [firstn]. apply app_nil_r.
Qed.

Lemma hash_text_ok h m : bytes m -> hash_text h m = Some (digest h m).
Proof.
  intros B. destruct h; unfold hash_text.
  - destruct (md5_final (repeat 0 64) [] m eq_refl (Forall_nil _) B) as (c & E & F). cbn [calc_all concat app] in E, F.
    unfold md5_calc. cbn [fold_left] in E. rewrite E. cbn [obind]. rewrite md5_tobytes_ok by (rewrite repeat_length; cbn; lia). cbn [obind]. rewrite F.
    f_equal. apply (put_all _ (digest MD5 m)), digest_len.
  - destruct (sha1_final (repeat 0 64) [] m eq_refl (Forall_nil _) B) as (c & E & F). cbn [calc_all concat app] in E, F.
    unfold sha1_calc. rewrite E. cbn [obind]. rewrite sha1_tobytes_ok by (rewrite repeat_length; cbn; lia). cbn [obind]. rewrite F.
    f_equal. apply (put_all _ (digest SHA1 m)), digest_len.
  - destruct (sha256_final (repeat 0 64) [] m eq_refl (Forall_nil _) B) as (c & E & F). cbn [calc_all concat app] in E, F.
    unfold sha256_calc. rewrite E. cbn [obind]. rewrite sha256_tobytes_ok by (try rewrite repeat_length; cbn; lia). cbn [obind]. rewrite F.
    f_equal. apply (put_all _ (digest SHA256 m)), digest_len.
Qed.

(** The DigestInfo as a tree. *)
Definition info_tree (h : hash) (d : list N) : elem :=
  Cons 0 16 [Cons 0 16 [Prim 0 6 (hash_oid h); Prim 0 5 []]; Prim 0 4 d].

Lemma info_der h d : length d = hlen h ->
  der (info_tree h d) = match h with
  | MD5 => [0x30; 0x20; 0x30; 0x0c; 0x06; 0x08; 0x2a; 0x86; 0x48; 0x86; 0xf7; 0x0d; 0x02; 0x05; 0x05; 0x00; 0x04; 0x10]
  | SHA1 => [0x30; 0x21; 0x30; 0x09; 0x06; 0x05; 0x2b; 0x0e; 0x03; 0x02; 0x1a; 0x05; 0x00; 0x04; 0x14]
  | SHA256 => [0x30; 0x31; 0x30; 0x0d; 0x06; 0x09; 0x60; 0x86; 0x48; 0x01; 0x65; 0x03; 0x04; 0x02; 0x01; 0x05; 0x00; 0x04; 0x20]
  end ++ d.
Proof.
  intros L. destruct h; cbn [hlen] in L; repeat (destruct d as [|? d]; [discriminate|]; cbn [length] in L; apply eq_add_S in L);
  (destruct d; [|discriminate]); vm_compute; reflexivity.
Qed.

Lemma digest_info_der h m : der (info_tree h (digest h m)) = digest_info h m.
Proof. rewrite info_der by apply digest_len. destruct h; reflexivity. Qed.

Lemma digest_info_len h m : length (digest_info h m) = match h with MD5 => 34 | SHA1 => 35 | SHA256 => 51 end%nat.
Proof. unfold digest_info. rewrite app_length, digest_len. destruct h; reflexivity. Qed.

Lemma digest_info_bytes h m : bytes (digest_info h m).
Proof. unfold digest_info. apply Forall_app. split; [|apply digest_bytes]. destruct h; repeat (apply Forall_cons; [reflexivity|]); apply Forall_nil. Qed.

Lemma emsa_encode_ok h m t : hash_of t = Some h -> bytes m -> emsa_encode m t = Some (Some (digest_info h m)).
Proof.
  intros T B. unfold emsa_encode. rewrite T, hash_text_ok by exact B. cbn [obind]. unfold digest_info.
  pose proof (digest_len h m) as L. revert L. generalize (digest h m). intros d L.
  destruct h; cbn [hlen] in L; repeat (destruct d as [|? d]; [discriminate|]; cbn [length] in L; apply eq_add_S in L); (destruct d; [|discriminate]); vm_compute; reflexivity.
Qed.

Lemma info_wf h d : bytes d -> wf (info_tree h d).
Proof.
  intros B. unfold info_tree. repeat (apply wf_cons || apply wf_prim || apply Forall_cons || apply Forall_nil || reflexivity || exact B).
  destruct h; repeat (apply Forall_cons; [reflexivity|]); apply Forall_nil.
Qed.

Lemma same_true a b : same a b = true <-> a = b.
Proof. unfold same. destruct (list_eq_dec N.eq_dec a b); split; congruence. Qed.

Lemma emsa_decode_ok h m rest : emsa_decode (digest_info h m ++ rest) = Some (Some (h, digest h m)).
Proof.
  unfold emsa_decode, asn1_decode. rewrite <- digest_info_der.
  rewrite decode_der; [|apply info_wf, digest_bytes|rewrite digest_info_der, digest_info_len; destruct h; reflexivity|rewrite app_length; lia].
  unfold info_tree. cbn [view map d_ident d_num length N.eqb Pos.eqb Nat.eqb negb orb content_get nth_error obind d_code].
  replace (hash_by_oid (hash_oid h)) with (Some h) by (destruct h; reflexivity). reflexivity.
Qed.

Lemma bytes_first i l : bytes l -> bytes (firstn i l).
Proof. intros B. rewrite <- (firstn_skipn i l) in B. apply Forall_app in B. apply B. Qed.
Lemma bytes_skip i l : bytes l -> bytes (skipn i l).
Proof. intros B. rewrite <- (firstn_skipn i l) in B. apply Forall_app in B. apply B. Qed.

Lemma verify_loop_nil f k : verify_loop f k [] = Some ([], Some []).
Proof. destruct f; reflexivity. Qed.

Lemma sign_loop_ok pub pri n e d p q : keys pub pri n e d p q -> 2 * 256 ^ N.of_nat (nlen pri - 2) <= n ->
  forall f em, bytes em -> (length em <= f)%nat ->
  exists s, sign_loop f pri em = Some (Some s) /\ bytes s /\ (exists j, length s = j * nlen pri)%nat /\
    forall g, (length s <= g)%nat -> exists s', verify_loop g pub s = Some (s', Some em).
Proof.
  intros K T. destruct (keys_good _ _ _ _ _ _ _ K) as [G G']. pose proof (nlen_bounds _ _ _ _ _ G') as NB.
  assert (NL : nlen pub = nlen pri) by (apply (nlen_eq pub pri n e d p q); [apply G|apply G']).
  induction f as [|f IH]; intros em B L.
  { destruct em; [|cbn in L; lia]. exists []. split; [reflexivity|]. split; [constructor|]. split; [exists 0%nat; reflexivity|].
    intros g _. exists []. apply verify_loop_nil. }
  destruct em as [|m0 m]. { exists []. split; [reflexivity|]. split; [constructor|]. split; [exists 0%nat; reflexivity|].
    intros g _. exists []. apply verify_loop_nil. }
  cbn [sign_loop]. set (em := m0 :: m) in *. assert (Le : (0 < length em)%nat) by (cbn; lia).
  rewrite room_ok by lia. set (size := N.to_nat _). assert (Sz : (0 < size <= length em /\ size + 11 <= nlen pri)%nat) by (unfold size; lia).
  assert (B1 : bytes (firstn size em)) by (apply bytes_first; exact B).
  assert (B2 : bytes (skipn size em)) by (apply bytes_skip; exact B).
  assert (L1 : length (firstn size em) = size) by (apply firstn_length_le; lia).
  destruct (private_encrypt_ok pri pub n d e p q (firstn size em) (pair_sym _ _ _ _ _ (ks_pair _ _ _ _ _ _ _ K)) G' G T B1) as (c & E & Lc & Bc & _ & E2); [intros Z; rewrite Z in L1; cbn in L1; lia|lia|].
  destruct (IH (skipn size em) B2) as (s & Es & Bs & (j & Ls) & V); [rewrite skipn_length; lia|].
  exists (c ++ s). rewrite E. cbn [obind]. rewrite Es. cbn [obind option_map]. split; [reflexivity|]. split; [apply Forall_app; split; assumption|].
  split; [exists (S j); rewrite app_length, Lc, Ls; lia|].
  intros g Hg. rewrite app_length in Hg. destruct c as [|c0 c]; [cbn [length] in Lc; lia|]. destruct g as [|g]; [cbn [length] in Hg; lia|].
  destruct (V g) as (s' & Ev); [cbn [length] in Hg; lia|]. cbn [app verify_loop].
  change (c0 :: c ++ s) with ((c0 :: c) ++ s). rewrite NL, <- Lc.
  rewrite firstn_app, Nat.sub_diag, firstn_all, skipn_app, Nat.sub_diag, skipn_all. cbn [firstn skipn app]. rewrite app_nil_r.
  assert (Ed : public_decrypt pub s (c0 :: c) = Some (block1 (nlen pri) (firstn size em), Some (firstn size em))).
  { apply decrypt_one; [congruence|lia|exact E2|]. apply anti_private. intros Z; rewrite Z in L1; cbn in L1; lia. }
  rewrite Ed. cbn [obind fst snd]. rewrite Ev. cbn [obind fst snd option_map]. rewrite firstn_skipn. eexists. reflexivity.
Qed.

Lemma sign_verify pub pri n e d p q m t h : keys pub pri n e d p q -> 2 * 256 ^ N.of_nat (nlen pri - 2) <= n ->
  hash_of t = Some h -> bytes m ->
  exists s s', sign pri m t = Some (Some s) /\ bytes s /\ verify pub m s = Some (s', true).
Proof.
  intros K T H B. destruct (keys_good _ _ _ _ _ _ _ K) as [G G']. pose proof (nlen_bounds _ _ _ _ _ G') as NB.
  assert (NL : nlen pub = nlen pri) by (apply (nlen_eq pub pri n e d p q); [apply G|apply G']).
  destruct (sign_loop_ok pub pri n e d p q K T (length (digest_info h m)) (digest_info h m) (digest_info_bytes h m) (le_n _)) as (s & E & Bs & (j & Ls) & V).
  destruct (V (length s) (le_n _)) as (s' & Ev).
  exists s, s'. unfold sign. rewrite room_ok by lia. rewrite (proj2 (N.ltb_ge _ _)) by lia. rewrite (emsa_encode_ok h m t H B). cbn [obind].
  split; [exact E|]. split; [exact Bs|]. unfold verify. rewrite (proj2 (Nat.eqb_neq _ _)) by lia. rewrite NL, Ls, Nat.mod_mul by lia.
  cbn [Nat.eqb negb]. rewrite <- Ls, Ev. cbn [obind snd fst]. rewrite <- (app_nil_r (digest_info h m)), emsa_decode_ok. cbn [obind].
  rewrite hash_text_ok by exact B. cbn [obind]. rewrite (proj2 (same_true _ _)) by reflexivity. reflexivity.
Qed.

(** One block: the signature of RFC 8017 8.2.1. *)
Lemma sign_one pub pri n e d p q m t h : keys pub pri n e d p q -> 2 * 256 ^ N.of_nat (nlen pri - 2) <= n ->
  hash_of t = Some h -> bytes m -> (length (digest_info h m) + 11 <= nlen pri)%nat ->
  exists s, sign pri m t = Some (Some s) /\ length s = nlen pri /\ bytes s /\
    be_value s = be_value (block1 (nlen pri) (digest_info h m)) ^ d mod n.
Proof.
  intros K T H B L. destruct (keys_good _ _ _ _ _ _ _ K) as [G G']. pose proof (nlen_bounds _ _ _ _ _ G') as NB.
  set (em := digest_info h m) in *. assert (Em : em <> []) by (unfold em, digest_info; destruct h; discriminate).
  destruct (private_encrypt_ok pri pub n d e p q em (pair_sym _ _ _ _ _ (ks_pair _ _ _ _ _ _ _ K)) G' G T (digest_info_bytes h m) Em L) as (c & E & Lc & Bc & Vc & _).
  exists c. unfold sign. rewrite room_ok by lia. rewrite (proj2 (N.ltb_ge _ _)) by lia. rewrite (emsa_encode_ok h m t H B). cbn [obind]. fold em.
  split; [|auto]. destruct em as [|m0 em']; [contradiction|]. change (length (m0 :: em')) with (S (length em')).
  cbn [sign_loop]. set (em := m0 :: em') in *.
  rewrite room_ok by lia. replace (N.to_nat _) with (length em) by lia. rewrite firstn_all, E. cbn [obind]. rewrite skipn_all.
  assert (Z : forall j, sign_loop j pri [] = Some (Some [])) by (destruct j; reflexivity). rewrite Z. cbn [obind option_map]. rewrite app_nil_r. reflexivity.
Qed.

Lemma scan_sound test l after r : scan test l after = Some r -> exists a, l = a ++ r /\ forall x, In x a -> test x = true.
Proof.
  induction l as [|c l IH]; cbn [scan]; intros E.
  - destruct after; [discriminate|]. injection E as <-. exists []. split; [reflexivity|intros x []].
  - destruct (test c) eqn:T.
    + destruct (IH E) as (a & -> & H). exists (c :: a). split; [reflexivity|]. intros x [<-|X]; auto.
    + injection E as <-. exists []. split; [reflexivity|intros x []].
Qed.

Lemma all_repeat (v : N) a : (forall x, In x a -> (x =? v) = true) -> a = repeat v (length a).
Proof.
  induction a as [|c a IH]; intros H; [reflexivity|]. cbn [length repeat].
  pose proof (H c (or_introl eq_refl)) as C. apply N.eqb_eq in C. subst. f_equal. apply IH. intros x X. apply H. right. exact X.
Qed.

Lemma anti_private_sound block after m : anti_padding_private block after = Some (Some m) -> unpadded block m /\ m <> [].
Proof.
  unfold anti_padding_private, unpadded. intros E. destruct block as [|a block]; [discriminate|].
  destruct (N.eqb_spec a 0) as [->|]; [|discriminate]. cbn [negb] in E. destruct block as [|b block]; [discriminate|].
  destruct (N.eqb_spec b 0) as [->|N0].
  - destruct (scan _ block after) as [p|] eqn:S; [|discriminate]. cbn [obind] in E. destruct (scan_sound _ _ _ _ S) as (l & -> & H).
    destruct p as [|p0 p]; [discriminate|]. injection E as <-. split; [|discriminate]. right. exists (length l). cbn [app].
    rewrite <- (all_repeat 0 l H). reflexivity.
  - destruct (N.eqb_spec b 1) as [->|]; [|discriminate].
    destruct (scan _ block after) as [p|] eqn:S; [|discriminate]. cbn [obind] in E. destruct (scan_sound _ _ _ _ S) as (l & -> & H).
    destruct p as [|p0 [|p1 p]]; try discriminate. destruct (N.eqb_spec p0 0) as [->|]; [|discriminate]. injection E as <-.
    split; [|discriminate]. left. exists (length l). cbn [app]. rewrite <- (all_repeat 255 l H). reflexivity.
Qed.

Lemma verify_loop_sound k n x : operates k n x -> forall f s s' em, bytes s -> (exists j, length s = j * nlen k)%nat ->
  verify_loop f k s = Some (s', Some em) -> recovered (nlen k) n x s em.
Proof.
  intros G. pose proof (op_len _ _ _ G) as NB.
  induction f as [|f IH]; intros s s' em B (j & L) E.
  - destruct s; [|discriminate]. injection E as <- <-. constructor.
  - destruct s as [|c s]; [injection E as <- <-; constructor|]. cbn [verify_loop] in E. set (t := c :: s) in *.
    destruct j as [|j]; [cbn in L; lia|].
    assert (L1 : length (firstn (nlen k) t) = nlen k) by (apply firstn_length_le; lia).
    assert (B1 : bytes (firstn (nlen k) t)) by (apply bytes_first; exact B).
    assert (L2 : length (skipn (nlen k) t) = (j * nlen k)%nat) by (rewrite skipn_length; lia).
    assert (B2 : bytes (skipn (nlen k) t)) by (apply bytes_skip; exact B).
    destruct (op_crypt _ _ _ G _ B1 L1) as (out & Ec & Lo & Bo & Vo).
    rewrite <- (firstn_skipn (nlen k) t).
    revert L1 B1 L2 B2 Ec Vo E. generalize (firstn (nlen k) t) (skipn (nlen k) t). intros c1 cs L1 B1 L2 B2 Ec Vo E.
    unfold public_decrypt, decrypt in E. rewrite (proj2 (Nat.ltb_ge _ _)) in E by lia. rewrite (proj2 (Nat.eqb_neq _ _)) in E by lia.
    rewrite L1, Nat.mod_same in E by lia. cbn [Nat.eqb negb] in E.
    destruct c1 as [|c0 c1]; [cbn [length] in L1; lia|]. rewrite <- L1 in E at 1. cbn [length decrypt_blocks] in E. rewrite <- L1, firstn_all, skipn_all in E.
    rewrite Ec in E. cbn [obind app] in E.
    destruct (anti_padding_private out cs) as [[m|]|] eqn:A; cbn [obind] in E; [|discriminate E|discriminate E].
    assert (R : forall i, decrypt_blocks i k anti_padding_private cs [] = Some ([], Some [])) by (destruct i; reflexivity).
    rewrite R in E. cbn [obind fst snd option_map] in E. destruct (verify_loop f k cs) as [[s1 [em1|]]|] eqn:V; cbn [obind fst snd option_map] in E; [|discriminate E|discriminate E].
    injection E as <- <-. rewrite app_nil_r. destruct (anti_private_sound _ _ _ A) as [U Mn].
    apply rec_block with out; auto. apply (IH cs s1 em1); auto. exists j. exact L2.
Qed.

Lemma tiles_part r i x : tiles r -> content_get r i = Some x -> exists a b, code_of r = a ++ code_of x ++ b.
Proof.
  intros T E. destruct T as [tag lo content H1 H2|tag lo kids H1 H2 H3]; cbn [content_get code_of] in *.
  - destruct i as [|[|i]]; [|discriminate|discriminate]. injection E as <-. exists (tag :: lo), []. cbn [code_of app]. rewrite app_nil_r. reflexivity.
  - apply nth_error_split in E. destruct E as (l1 & l2 & -> & _). exists (tag :: lo ++ flat_map code_of l1), (flat_map code_of l2).
    rewrite flat_map_app. cbn [flat_map app]. rewrite <- !app_assoc. reflexivity.
Qed.

Lemma tiles_two r : tiles r -> d_num r = 2%nat -> exists a x y, content_get r 0 = Some x /\ content_get r 1 = Some y /\ tiles x /\ tiles y /\
  code_of r = a ++ code_of x ++ code_of y.
Proof.
  intros T E. destruct T as [tag lo content H1 H2|tag lo kids H1 H2 H3]; cbn [d_num content_get code_of] in *; [discriminate|].
  destruct kids as [|x [|y [|]]]; try discriminate. exists (tag :: lo), x, y. inversion H3 as [|? ? Tx H4]; subst. inversion H4 as [|? ? Ty _]; subst.
  cbn [flat_map nth_error app]. rewrite app_nil_r. auto 10.
Qed.

Lemma emsa_decode_sound e h v : bytes e -> emsa_decode e = Some (Some (h, v)) -> carries e h v.
Proof.
  intros B E. unfold emsa_decode in E. destruct (asn1_decode e) as [res rest| | | |] eqn:A; try discriminate.
  destruct (decode_tiles _ _ _ _ B A) as [Ee T].
  destruct (negb (d_ident res =? 16) || negb (d_num res =? 2)%nat) eqn:C1; [discriminate|].
  apply orb_false_elim in C1. destruct C1 as [_ C1]. apply negb_false_iff, Nat.eqb_eq in C1.
  destruct (tiles_two res T C1) as (a1 & alg & dig & Ea & Ed & Ta & Td & Cr). rewrite Ea in E. cbn [obind] in E.
  destruct (negb (d_ident alg =? 16) || negb (d_num alg =? 2)%nat) eqn:C2; [discriminate|].
  apply orb_false_elim in C2. destruct C2 as [_ C2]. apply negb_false_iff, Nat.eqb_eq in C2.
  destruct (tiles_two alg Ta C2) as (a2 & oid & par & Eo & Ep & To & Tp & Ca). rewrite Eo in E. cbn [obind] in E.
  destruct (negb (d_ident oid =? 6)); [discriminate|]. destruct (content_get oid 0) as [oc|] eqn:Eoc; [|discriminate].
  destruct (tiles_part _ _ _ To Eoc) as (a3 & b3 & Co).
  destruct (hash_by_oid (d_code oc)) as [h'|] eqn:H; [|discriminate].
  assert (Ho : code_of oc = hash_oid h').
  { change (d_code oc) with (code_of oc) in H. unfold hash_by_oid in H.
    destruct (same (code_of oc) (hash_oid MD5)) eqn:S1; [injection H as <-; apply same_true; exact S1|].
    destruct (same (code_of oc) (hash_oid SHA1)) eqn:S2; [injection H as <-; apply same_true; exact S2|].
    destruct (same (code_of oc) (hash_oid SHA256)) eqn:S3; [injection H as <-; apply same_true; exact S3|discriminate]. }
  rewrite Ep in E. cbn [obind] in E. destruct (negb (d_ident par =? 5) || negb (d_num par =? 1)%nat); [discriminate|].
  destruct (content_get par 0) as [pc|]; [|discriminate]. cbn [obind] in E. destruct (negb (length (d_code pc) =? 0)%nat); [discriminate|].
  rewrite Ed in E. cbn [obind] in E. destruct (negb (d_ident dig =? 4) || negb (d_num dig =? 1)%nat); [discriminate|].
  destruct (content_get dig 0) as [dc|] eqn:Edc; [|discriminate]. cbn [obind] in E. injection E as <- <-.
  destruct (tiles_part _ _ _ Td Edc) as (a4 & b4 & Cd).
  exists (a1 ++ a2 ++ a3), (b3 ++ code_of par ++ a4), (b4 ++ rest). change (d_code dc) with (code_of dc).
  rewrite Ee, Cr, Ca, Co, Cd, Ho. rewrite <- !app_assoc. reflexivity.
Qed.

Lemma recovered_bytes k n e s em : recovered k n e s em -> bytes em.
Proof.
  induction 1 as [|c block m cs ms L1 L2 B V U Mn R IH]; [constructor|]. apply Forall_app. split; [|exact IH].
  destruct U as [[j ->]|[j ->]]; repeat (apply Forall_app in B; destruct B as [_ B]); exact B.
Qed.

Lemma verify_sound k n x m s s' : operates k n x -> bytes m -> bytes s -> verify k m s = Some (s', true) ->
  exists em h, recovered (nlen k) n x s em /\ carries em h (digest h m).
Proof.
  intros G Bm B E. pose proof (op_len _ _ _ G) as NB. unfold verify in E. rewrite (proj2 (Nat.eqb_neq _ _)) in E by lia.
  destruct (Nat.eqb_spec (length s mod nlen k) 0) as [D|D]; cbn [negb] in E; [|discriminate].
  destruct (verify_loop (length s) k s) as [[s1 [em|]]|] eqn:V; cbn [obind fst snd] in E; [|discriminate E|discriminate E].
  assert (R : recovered (nlen k) n x s em).
  { apply (verify_loop_sound k n x G (length s) s s1 em B); [|exact V]. apply Nat.mod_divides in D; [|lia]. destruct D as [j D]. exists j. lia. }
  destruct (emsa_decode em) as [[[h v]|]|] eqn:A; cbn [obind] in E; [|discriminate E|discriminate E].
  rewrite hash_text_ok in E by exact Bm. cbn [obind] in E. injection E as _ E. apply same_true in E. subst v.
  exists em, h. split; [exact R|]. apply emsa_decode_sound; [exact (recovered_bytes _ _ _ _ _ R)|exact A].
Qed.

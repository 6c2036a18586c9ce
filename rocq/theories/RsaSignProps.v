(** * RSA signatures: the properties *)
Require Import List Arith NArith ZArith Znumtheory Lia.
Require Import Verif.Base Verif.EndianSpec Verif.EndianProofs Verif.BnModel Verif.BnTextModel Verif.BnSpec Verif.BnProofs Verif.RsaModel Verif.RsaSpec Verif.RsaProofs Verif.RsaBlockProofs
  Verif.RsaSignProofs Verif.RsaForgeProofs Verif.RsaShortProofs Verif.RsaExample.
Import ListNotations.
Local Open Scope N_scope.

(** What the private key signs the public key verifies, for the three hashes and every message.  The full property
    has no condition on the modulus; [rsa_short_modulus_refuted] shows what a short one does to blocks. *)
Theorem rsa_sign_verify_partial :
  forall pub pri n e d p q m t h, keys pub pri n e d p q -> 2 * 256 ^ N.of_nat (nlen pri - 2) <= n ->
    hash_of t = Some h -> bytes m ->
    exists s s', sign pri m t = Some (Some s) /\ bytes s /\ verify pub m s = Some (s', true).
Proof. exact sign_verify. Qed.
Print Assumptions rsa_sign_verify_partial.

(** When the encoded digest fits one block, the signature is that of RFC 8017 (RSASSA-PKCS1-v1_5), bit for bit. *)
Theorem rsa_signature_standard :
  forall pub pri n e d p q m t h, keys pub pri n e d p q -> 2 * 256 ^ N.of_nat (nlen pri - 2) <= n ->
    hash_of t = Some h -> bytes m -> (length (digest_info h m) + 11 <= nlen pri)%nat ->
    exists s, sign pri m t = Some (Some s) /\ length s = nlen pri /\ bytes s /\
      be_value s = be_value (block1 (nlen pri) (digest_info h m)) ^ d mod n.
Proof. exact sign_one. Qed.
Print Assumptions rsa_signature_standard.

(** A hash that is not one of the three is refused. *)
Theorem rsa_unknown_hash : forall pri m t, 2 < t -> sign pri m t = Some None.
Proof.
  intros pri m t T. unfold sign. destruct (room pri <? 1); [reflexivity|]. unfold emsa_encode, hash_of.
  destruct (N.eqb_spec t 0) as [->|_]; [discriminate|]. destruct (N.eqb_spec t 1) as [->|_]; [discriminate|]. destruct (N.eqb_spec t 2) as [->|_]; [discriminate|]. reflexivity.
Qed.
Print Assumptions rsa_unknown_hash.

(** What verification accepts: the blocks of the signature, raised to e modulo n, are padded texts, and these contain
    the identifier of a hash and after it the digest of the message.  The full property asks for more: that the padding is
    the one of a signature, and that nothing else is in it; that is refuted below. *)
Theorem rsa_verify_sound_partial :
  forall pub n e m s s', public_key pub n e -> bytes m -> bytes s -> verify pub m s = Some (s', true) ->
    exists em h, recovered (nlen pub) n e s em /\ carries em h (digest h m).
Proof. intros pub n e m s s' K. apply verify_sound. apply public_operates. exact K. Qed.
Print Assumptions rsa_verify_sound_partial.

(** The same for the public key of a generated pair. *)
Theorem rsa_verify_sound_pair_partial :
  forall pub pri n e d p q m s s', keys pub pri n e d p q -> bytes m -> bytes s -> verify pub m s = Some (s', true) ->
    exists em h, recovered (nlen pub) n e s em /\ carries em h (digest h m).
Proof. intros pub pri n e d p q m s s' K. apply verify_sound. apply (good_operates _ _ _ p q). apply (keys_good _ _ _ _ _ _ _ K). Qed.
Print Assumptions rsa_verify_sound_pair_partial.

(** ** Where the property fails *)

(** A signature can be made without any key: for the exponent 3 there is one function that makes, from the message
    alone, a string that every public key of 112 bytes or more accepts as its signature.  Bytes behind the encoded
    digest are ignored, and a block padded with zeros is taken for one padded with 0xff. *)
Theorem rsa_forgery_refuted :
  exists forge : nat -> list N -> list N, forall pub n m, public_key pub n 3 -> (112 <= nlen pub)%nat -> bytes m ->
    exists s', verify pub m (forge (nlen pub) m) = Some (s', true).
Proof. exists forge. intros pub n m K. apply (forge_accepted pub n m). apply public_operates. exact K. Qed.
Print Assumptions rsa_forgery_refuted.

(** A public key of 896 bits and the exponent 3. *)
Definition three_n : N := 2 ^ 895 + 12345.
Definition three_pub : key := public_value_set (mkKey bn_zero bn_zero bn_zero bn_zero bn_zero bn_zero bn_zero false) (number three_n) (number 3).

Lemma three_public : public_key three_pub three_n 3.
Proof.
  constructor; [reflexivity|apply holdsb_ok; vm_compute; reflexivity|apply holdsb_ok; vm_compute; reflexivity| |discriminate].
  split; [apply N.leb_le|apply N.ltb_lt]; vm_compute; reflexivity.
Qed.

(** Verification overwrites the signature it is given, so that the same signature is not accepted again. *)
Theorem rsa_signature_kept_refuted :
  exists pub n e m s s', public_key pub n e /\ bytes m /\ bytes s /\ verify pub m s = Some (s', true) /\ s' <> s /\
    exists s'', verify pub m s' = Some (s'', false).
Proof.
  exists three_pub, three_n, 3, [1; 2; 3], (forge 112 [1; 2; 3]).
  assert (E : exists s', verify three_pub [1; 2; 3] (forge 112 [1; 2; 3]) = Some (s', true) /\ s' <> forge 112 [1; 2; 3] /\ exists s'', verify three_pub [1; 2; 3] s' = Some (s'', false)).
  { let v := eval vm_compute in (verify three_pub [1; 2; 3] (forge 112 [1; 2; 3])) in match v with Some (?s, true) =>
      exists s; split; [vm_compute; reflexivity|split; [vm_compute; discriminate|]];
      let w := eval vm_compute in (verify three_pub [1; 2; 3] s) in match w with Some (?t, false) => exists t; vm_compute; reflexivity end end. }
  destruct E as (s' & E1 & E2 & E3). exists s'. split; [exact three_public|]. split; [repeat constructor|].
  split; [apply be_bytes_bytes|]. split; [exact E1|]. split; assumption.
Qed.
Print Assumptions rsa_signature_kept_refuted.

(** ** Cases that meet the hypotheses *)

(** With 372 bits an MD5 digest fits one block; with 96 bits every byte has its own. *)
Example rsa_sign_ex_mid :
  keys mid_pub mid_pri mid_n 65537 mid_d mid_p mid_q /\ 2 * 256 ^ N.of_nat (nlen mid_pri - 2) <= mid_n /\ hash_of 0 = Some MD5 /\
  (length (digest_info MD5 [97; 98; 99]%N) + 11 <= nlen mid_pri)%nat /\
  exists s s', sign mid_pri [97; 98; 99] 0 = Some (Some s) /\ verify mid_pub [97; 98; 99] s = Some (s', true).
Proof.
  assert (T : 2 * 256 ^ N.of_nat (nlen mid_pri - 2) <= mid_n) by (apply N.leb_le; vm_compute; reflexivity).
  split; [exact mid_keys|]. split; [exact T|]. split; [reflexivity|]. split; [rewrite digest_info_len; vm_compute; repeat constructor|].
  destruct (rsa_sign_verify_partial _ _ _ _ _ _ _ [97; 98; 99] 0 MD5 mid_keys T eq_refl) as (s & s' & E1 & _ & E2); [repeat constructor|].
  exists s, s'. split; assumption.
Qed.
Example rsa_sign_ex_small :
  keys small_pub small_pri small_n 65537 small_d small_p small_q /\ 2 * 256 ^ N.of_nat (nlen small_pri - 2) <= small_n /\ hash_of 2 = Some SHA256.
Proof. split; [exact small_keys|]. split; [apply N.leb_le; vm_compute; reflexivity|reflexivity]. Qed.

(** The forger's key. *)
Example rsa_forgery_ex : public_key three_pub three_n 3 /\ nlen three_pub = 112%nat.
Proof. split; [exact three_public|reflexivity]. Qed.

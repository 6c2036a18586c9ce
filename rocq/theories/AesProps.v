(** Property C13: AES. *)
Require Import List Arith NArith Bool Lia.
Require Import Verif.Base Verif.AesModel Verif.AesSpec Verif.AesProofs.
Import ListNotations.
Open Scope N_scope.

(** The code computes the published cipher and its inverse, for every key of the three sizes and every block. *)
Theorem aes_computes_standard : forall code nk nr key text, aes_size code nk nr ->
  Forall (fun b => b < 256) key -> length key = (4 * nk)%nat -> Forall (fun b => b < 256) text -> length text = 16%nat ->
  exists a, aes_init key code = Some a /\ aes_encrypt a text = Some (cipher nr (key_expansion nk nr key) text) /\
    aes_decrypt a text = Some (inv_cipher nr (key_expansion nk nr key) text).
Proof. exact aes_standard_lemma. Qed.
Print Assumptions aes_computes_standard.

(** Decrypting an encrypted buffer gives the buffer back; bytes after the first sixteen are left alone. *)
Theorem aes_round_trip : forall code nk nr key text, aes_size code nk nr ->
  Forall (fun b => b < 256) key -> (4 * nk <= length key)%nat -> Forall (fun b => b < 256) text -> (16 <= length text)%nat ->
  exists a c, aes_init key code = Some a /\ aes_encrypt a text = Some c /\ length c = length text /\ skipn 16 c = skipn 16 text /\ aes_decrypt a c = Some text.
Proof. exact aes_back_lemma. Qed.
Print Assumptions aes_round_trip.

(** Unknown key sizes are refused. *)
Theorem aes_refuses_unknown_size : forall key code, 2 < code -> aes_init key code = None.
Proof. exact aes_refuses_lemma. Qed.
Print Assumptions aes_refuses_unknown_size.

(** FIPS 197 appendix C.1 and C.3. *)
Example aes_known_answer :
  match aes_init (map N.of_nat (seq 0 16)) 0 with Some a => aes_encrypt a (map (fun i => N.of_nat i * 17) (seq 0 16)) | None => None end =
    Some [0x69; 0xc4; 0xe0; 0xd8; 0x6a; 0x7b; 0x04; 0x30; 0xd8; 0xcd; 0xb7; 0x80; 0x70; 0xb4; 0xc5; 0x5a] /\
  match aes_init (map N.of_nat (seq 0 32)) 2 with Some a => aes_encrypt a (map (fun i => N.of_nat i * 17) (seq 0 16)) | None => None end =
    Some [0x8e; 0xa2; 0xb7; 0xca; 0x51; 0x67; 0x45; 0xbf; 0xea; 0xfc; 0x49; 0x90; 0x4b; 0x49; 0x60; 0x89].
Proof. split; vm_compute; reflexivity. Qed.
Example aes_decrypt_ex : match aes_init (map N.of_nat (seq 0 24)) 1 with Some a =>
    match aes_encrypt a (map (fun i => N.of_nat i * 17) (seq 0 16)) with Some c => aes_decrypt a c | None => None end | None => None end = Some (map (fun i => N.of_nat i * 17) (seq 0 16)).
Proof. vm_compute. reflexivity. Qed.

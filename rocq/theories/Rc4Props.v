(** C11: RC4 (mln_rc4_init, mln_rc4_calc). *)
Require Import List Arith NArith Permutation.
Require Import Verif.Base Verif.Rc4Model Verif.Rc4Spec Verif.Rc4Proofs.
Import ListNotations.
Open Scope N_scope.

(** With every non-empty key, every array access is in range and the output is RC4 as specified in Rc4Spec. *)
Theorem rc4_is_rc4 :
  forall key data, bytes key -> key <> [] ->
    exists s, rc4_init key = Some s /\ rc4_calc s data = Some (rc4_spec key data).
Proof. exact rc4_matches. Qed.
Print Assumptions rc4_is_rc4.

(** Known answer: key "Key", plaintext "Plaintext" gives BBF316E8D940AF0AD3. *)
Example rc4_known_answer :
  rc4_spec [75; 101; 121] [80; 108; 97; 105; 110; 116; 101; 120; 116] =
  [0xBB; 0xF3; 0x16; 0xE8; 0xD9; 0x40; 0xAF; 0x0A; 0xD3].
Proof. vm_compute. reflexivity. Qed.

(** Applying the routine twice with the same table restores the data. *)
Theorem rc4_decrypt_inverts_encrypt :
  forall key data, bytes key -> key <> [] ->
    exists s c, rc4_init key = Some s /\ rc4_calc s data = Some c /\ length c = length data /\ rc4_calc s c = Some data.
Proof. exact rc4_round. Qed.
Print Assumptions rc4_decrypt_inverts_encrypt.

Example rc4_meets : bytes [75; 101; 121] /\ [75; 101; 121] <> [].
Proof. split; [repeat constructor | discriminate]. Qed.

(** The table built from a key is a permutation of 0..255. *)
Theorem rc4_table_is_permutation :
  forall key s, rc4_init key = Some s -> Permutation s (map N.of_nat (seq 0 256)).
Proof. exact rc4_init_perm. Qed.
Print Assumptions rc4_table_is_permutation.

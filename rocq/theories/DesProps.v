(** Property C12: DES and triple DES. *)
Require Import List Arith NArith Bool Lia.
Require Import Verif.Base Verif.DesModel Verif.DesSpec Verif.DesProofs.
Import ListNotations.
Open Scope N_scope.

(** The code computes DES as published, enciphering and deciphering, for every key and block. *)
Theorem des_computes_standard : forall key msg e, bits 64 (des (des_init key) msg e) = des_block e (bits 64 key) (bits 64 msg).
Proof. exact des_is_standard. Qed.
Print Assumptions des_computes_standard.
Example des_known_answer : des (des_init 0x133457799BBCDFF1) 0x0123456789ABCDEF true = 0x85E813540F0AB405.
Proof. vm_compute. reflexivity. Qed.

(** Triple DES is encrypt, decrypt, encrypt with the first, second and first key; backwards, the opposite. *)
Theorem triple_des_computes_standard : forall key1 key2 msg e, bits 64 (tdes (des_init key1) (des_init key2) msg e) =
  des_block e (bits 64 key1) (des_block (negb e) (bits 64 key2) (des_block e (bits 64 key1) (bits 64 msg))).
Proof. exact tdes_is_standard. Qed.
Print Assumptions triple_des_computes_standard.

(** Either direction undoes the other, with the same key. *)
Theorem des_round_trip : forall key msg e, msg < 2 ^ 64 -> des (des_init key) (des (des_init key) msg e) (negb e) = msg.
Proof. intros key. exact (des_back (des_init key)). Qed.
Print Assumptions des_round_trip.
Theorem triple_des_round_trip : forall key1 key2 msg e, msg < 2 ^ 64 ->
  tdes (des_init key1) (des_init key2) (tdes (des_init key1) (des_init key2) msg e) (negb e) = msg.
Proof. intros key1 key2. exact (tdes_back (des_init key1) (des_init key2)). Qed.
Print Assumptions triple_des_round_trip.
Example des_round_trip_ex : des (des_init 0x133457799BBCDFF1) 0x85E813540F0AB405 false = 0x0123456789ABCDEF /\
  tdes (des_init 1) (des_init 2) 3 true <> 3.
Proof. split; [vm_compute; reflexivity|vm_compute; discriminate]. Qed.

(** Buffers of any length: the encrypted buffer is the padded length, and decrypting it gives the input followed by the fill bytes. *)
Theorem des_buffer_round_trip : forall key inp outlen outlen' fill fill' e, Forall (fun b => b < 256) inp -> fill < 256 ->
  (length inp + padding (length inp) <= outlen)%nat -> (length inp + padding (length inp) <= outlen')%nat ->
  exists c, des_buf (des_init key) inp outlen fill e = Some c /\ length c = (length inp + padding (length inp))%nat /\
    des_buf (des_init key) c outlen' fill' (negb e) = Some (inp ++ repeat fill (padding (length inp))).
Proof. exact des_buf_ok. Qed.
Print Assumptions des_buffer_round_trip.
Theorem triple_des_buffer_round_trip : forall key1 key2 inp outlen outlen' fill fill' e, Forall (fun b => b < 256) inp -> fill < 256 ->
  (length inp + padding (length inp) <= outlen)%nat -> (length inp + padding (length inp) <= outlen')%nat ->
  exists c, tdes_buf (des_init key1) (des_init key2) inp outlen fill e = Some c /\ length c = (length inp + padding (length inp))%nat /\
    tdes_buf (des_init key1) (des_init key2) c outlen' fill' (negb e) = Some (inp ++ repeat fill (padding (length inp))).
Proof. exact tdes_buf_ok. Qed.
Print Assumptions triple_des_buffer_round_trip.
Example des_buffer_ex : exists c, des_buf (des_init 77) [1; 2; 3; 4; 5; 6; 7; 8; 9] 16 0 true = Some c /\ length c = 16%nat /\
  des_buf (des_init 77) c 16 0 false = Some [1; 2; 3; 4; 5; 6; 7; 8; 9; 0; 0; 0; 0; 0; 0; 0].
Proof. eexists. split; [vm_compute; reflexivity|]. split; vm_compute; reflexivity. Qed.

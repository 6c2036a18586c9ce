(** C10: base64. *)
Require Import List Arith NArith.
Require Import Verif.Base Verif.Base64Model Verif.Base64Spec Verif.Base64Proofs.
Import ListNotations.
Open Scope N_scope.

(** The encoder never leaves its buffer and produces exactly the RFC 4648 text (plus the terminating NUL cell), and the
    announced length is the length of that text. *)
Theorem base64_encode_is_rfc4648 :
  forall l, bytes l -> b64_encode l = Some (b64_spec l ++ [0], length (b64_spec l)).
Proof. exact encode_ok. Qed.
Print Assumptions base64_encode_is_rfc4648.

Theorem base64_encoded_length :
  forall l, length (b64_spec l) = (length l / 3 * 4 + (if length l mod 3 =? 0 then 0 else 4))%nat.
Proof. exact spec_length. Qed.
Print Assumptions base64_encoded_length.

(** C10 round trip for every non-empty byte string. *)
Theorem base64_round_trip_partial :
  forall l, bytes l -> l <> [] ->
    exists text, b64_encode l = Some (text ++ [0], length text) /\
                 b64_decode text = Some (DecOk (l ++ [0]) (length l)).
Proof.
  exact (fun l Hb Hn => ex_intro _ (b64_spec l) (conj (encode_ok l Hb) (decode_encode l Hb Hn))).
Qed.
Print Assumptions base64_round_trip_partial.

Example base64_round_trip_meets :
  let l := [77; 97; 110; 255; 0] in
  bytes l /\ l <> [] /\ b64_spec l = [84; 87; 70; 117; 47; 119; 65; 61] /\
  b64_decode (b64_spec l) = Some (DecOk (l ++ [0]) 5%nat).
Proof. repeat split; repeat constructor; discriminate. Qed.

(** The full round trip (including the empty string) is false of the code: decoding the empty encoding reads the byte
    before the buffer. *)
Theorem base64_round_trip_refuted :
  exists l, bytes l /\ b64_encode l = Some ([0], 0%nat) /\ b64_decode [] = None.
Proof. exists []. repeat split; constructor. Qed.
Print Assumptions base64_round_trip_refuted.

(** Decoding arbitrary non-empty bytes stays inside both buffers. *)
Theorem base64_decode_memory_safe :
  forall l, bytes l -> l <> [] -> b64_decode l <> None.
Proof. exact decode_safe. Qed.
Print Assumptions base64_decode_memory_safe.

Example base64_decode_memory_safe_meets :
  let l := [61; 61; 61; 61; 65; 61; 33; 65] in bytes l /\ l <> [] /\ b64_decode l = Some (DecOk [0; 0; 0; 0; 0; 0; 0] 6%nat).
Proof. split; [repeat constructor|]. split; [discriminate|]. vm_compute. reflexivity. Qed.

(** Lengths that are not a multiple of four are refused. *)
Theorem base64_decode_refuses_bad_length :
  forall l, (length l mod 4 <> 0)%nat -> b64_decode l = Some DecErr.
Proof. exact decode_bad_length. Qed.
Print Assumptions base64_decode_refuses_bad_length.

Example base64_bad_length_meets : (length [65; 65; 65] mod 4 <> 0)%nat.
Proof. discriminate. Qed.

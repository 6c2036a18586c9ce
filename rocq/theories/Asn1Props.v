(** ASN.1: what the encoder writes is the distinguished encoding, and the decoder
    reads it back. *)
Require Import List NArith ZArith Bool Permutation Sorted.
Import ListNotations.
Require Import Verif.EndianSpec Verif.CalModel Verif.CalSpec Verif.Asn1Model Verif.Asn1Spec Verif.Asn1Proofs Verif.Asn1EncProofs.
Local Open Scope N_scope.

(** C36: building any tree of elements gives its distinguished encoding. *)
Theorem asn1_encoder_writes_der : forall e, wf e -> N.of_nat (length (der e)) < 2 ^ 62 ->
  exists r, build e = Some r /\ econts r = [der e] /\ esize r = N.of_nat (length (der e)).
Proof.
  intros e W S. destruct (build_ok e W S) as (r & E & C & [H _]). exists r. split; [exact E|]. split; [exact C|].
  rewrite H, C. cbn [concat]. rewrite app_nil_r. reflexivity.
Qed.
Print Assumptions asn1_encoder_writes_der.

(** C36: and decoding it, whatever bytes come after it and however it is cut into
    buffers, gives back the tree, every node with its own bytes.  Missing for the
    full property: encodings of 2^31 bytes and more, where the decoder shifts into
    the sign bit of an int. *)
Theorem asn1_round_trip_partial : forall e r, wf e -> N.of_nat (length (der e)) < 2 ^ 31 -> build e = Some r ->
  forall rest bufs, concat bufs = concat (econts r) ++ rest ->
  asn1_decode_chain bufs = Done (view e) rest.
Proof.
  intros e r W S B rest bufs Q. destruct (build_ok e W) as (r' & E & C & _).
  { eapply N.lt_trans; [exact S|reflexivity]. }
  rewrite E in B. injection B as ->. rewrite C in Q. cbn [concat] in Q. rewrite app_nil_r in Q.
  unfold asn1_decode_chain, asn1_decode. rewrite Q. apply decode_der; auto.
  rewrite app_length. apply le_S, PeanoNat.Nat.le_add_r.
Qed.
Print Assumptions asn1_round_trip_partial.

Definition tree_ex : elem :=
  Cons 0 16 [Prim 0 2 [1; 0]; Cons 2 1 []; Prim 0 4 (repeat 7 200); Cons 0 17 [Cons 0 16 [Prim 0 6 [42; 3]; Prim 0 19 [65]]]].
Example round_trip_ex : wf tree_ex /\ length (der tree_ex) = 223%nat /\ option_map econts (build tree_ex) = Some [der tree_ex] /\
  asn1_decode_chain [firstn 5 (der tree_ex); skipn 5 (der tree_ex) ++ [9; 9]] = Done (view tree_ex) [9; 9].
Proof.
  split; [|split; [|split]]; [|vm_compute; reflexivity..].
  unfold tree_ex. repeat (apply wf_cons || apply wf_prim || apply Forall_cons || apply Forall_nil || reflexivity).
Qed.

(** C36: each operation for a primitive type appends one element, with the class and
    form set by the caller, the caller's identifier or the universal one, and the
    caller's bytes. *)
Theorem asn1_primitives : forall r o u content, primitive o = Some (u, content) -> holds_elements r ->
  ecls r < 4 -> ident_of r u < 32 -> esize r + N.of_nat (length content) + 40 < 2 ^ 63 ->
  exists r', astep r o = Some r' /\ holds_elements r' /\
    econts r' = econts r ++ [tlv (ecls r) (estr r) (ident_of r u) content].
Proof. exact primitive_ok. Qed.
Print Assumptions asn1_primitives.
Example primitives_ex : option_map econts (arun en_init [OInt [5]; ONull; OClass 2; OIdent 3; OBool 1; OUtf8 [104; 105]]) =
  Some [[2; 1; 5]; [5; 0]; [0x83; 1; 1]; [0x83; 2; 104; 105]].
Proof. reflexivity. Qed.

(** C36: after any history of calls the encoder holds complete elements and knows
    their total size, and no call writes more or less than the buffer it allocated. *)
Theorem asn1_encoder_histories : forall ops, Forall aop_ok ops -> total_cost ops < 2 ^ 63 ->
  exists r, arun en_init ops = Some r /\ holds_elements r.
Proof. intros ops O B. apply arun_ok; auto. split; [reflexivity|constructor]. Qed.
Print Assumptions asn1_encoder_histories.
Example histories_ex :
  let ops := [OUtf8 [104; 105]; OBits [0xff; 0xff] 11; OSet; OIdent 4; OGenTime 951782400; OImplicit 7 1; OSetOf; OMerge en_init; OTrans; OInt [1]] in
  Forall aop_ok ops /\ total_cost ops < 2 ^ 63 /\ option_map econts (arun en_init ops) = Some [[4; 1; 1]].
Proof. split; [|split; vm_compute; reflexivity]. repeat constructor; try discriminate; exact I. Qed.

(** C36: an implicit tag replaces class and identifier and keeps form and content. *)
Theorem asn1_implicit_tag : forall r c con i content ident k, c < 4 -> i < 32 -> ident < 32 ->
  nth_error (econts r) k = Some (tlv c con i content) ->
  encode_implicit r ident k = Some (true, E (ecls r) (estr r) (eidn r) (esize r) (Base.upd (econts r) k (tlv 2 con ident content))).
Proof. exact implicit_tag. Qed.
Print Assumptions asn1_implicit_tag.
Example implicit_ex : option_map (fun x => econts (snd x)) (encode_implicit (E 0 false ID_NONE 5 [[2; 1; 5]; [0x30; 0]]) 3 1) = Some [[2; 1; 5]; [0xa3; 0]].
Proof. reflexivity. Qed.

(** C36: a SET OF does not depend on the order in which its elements were added, and
    they are in ascending order of their encodings. *)
Theorem asn1_setof_canonical : forall r1 r2, holds_elements r1 -> esize r1 + 40 < 2 ^ 63 ->
  ecls r1 = ecls r2 -> eidn r1 = eidn r2 -> esize r1 = esize r2 -> Permutation (econts r1) (econts r2) ->
  exists r1' r2', encode_setof r1 = Some r1' /\ encode_setof r2 = Some r2' /\ econts r1' = econts r2'.
Proof.
  intros r1 r2 H B C I S P. unfold encode_setof.
  rewrite <- (sort_canonical setof_le setof_total setof_trans setof_antisym _ _ P).
  assert (H2 : holds_elements r2).
  { destruct H as [H1 H2]. split; [rewrite <- S, H1; f_equal; apply perm_concat_len; exact P|].
    eapply Permutation_Forall; eauto. }
  destruct (wrap_ok r1 17 _ H B (sort_perm setof_le _)) as (a & Ea & _ & _ & Ca).
  rewrite S in B. destruct (wrap_ok r2 17 _ H2 B (Permutation_trans (sort_perm setof_le _) P)) as (b & Eb & _ & _ & Cb).
  exists a, b. split; [exact Ea|]. split; [exact Eb|]. rewrite Ca, Cb. unfold tag_byte. rewrite C, I. reflexivity.
Qed.
Print Assumptions asn1_setof_canonical.
(** The order on encodings, bytewise with the shorter string first on a tie. *)
Theorem asn1_setof_sorted : forall r, holds_elements r -> esize r + 40 < 2 ^ 63 ->
  exists r' parts, encode_setof r = Some r' /\ Permutation parts (econts r) /\
    Sorted (fun a b => setof_le a b = true) parts /\
    econts r' = [tag_byte r true 17 :: length_octets (N.of_nat (length (concat parts))) ++ concat parts].
Proof.
  intros r H B. destruct (wrap_ok r 17 _ H B (sort_perm setof_le _)) as (r' & E' & _ & _ & C).
  exists r', (sort_by setof_le (econts r)). split; [exact E'|]. split; [apply sort_perm|].
  split; [apply sort_sorted, setof_total|exact C].
Qed.
Print Assumptions asn1_setof_sorted.
Example setof_ex :
  option_map econts (arun en_init [OUtf8 [98]; OUtf8 [97; 97]; OUtf8 [97]; OSetOf]) = Some [[0x31; 10; 12; 1; 97; 12; 1; 98; 12; 2; 97; 97]] /\
  option_map econts (arun en_init [OUtf8 [97]; OUtf8 [98]; OUtf8 [97; 97]; OSetOf]) = Some [[0x31; 10; 12; 1; 97; 12; 1; 98; 12; 2; 97; 97]].
Proof. split; reflexivity. Qed.

(** C36: the elements of a SET are ordered by their first byte. *)
Theorem asn1_set_sorted : forall r, holds_elements r -> esize r + 40 < 2 ^ 63 ->
  exists r' parts, encode_set r = Some r' /\ Permutation parts (econts r) /\
    Sorted (fun a b => set_le a b = true) parts /\
    econts r' = [tag_byte r true 17 :: length_octets (N.of_nat (length (concat parts))) ++ concat parts].
Proof.
  intros r H B. destruct (wrap_ok r 17 _ H B (sort_perm set_le _)) as (r' & E' & _ & _ & C).
  exists r', (sort_by set_le (econts r)). split; [exact E'|]. split; [apply sort_perm|].
  split; [apply sort_sorted, set_total|exact C].
Qed.
Print Assumptions asn1_set_sorted.
(** That is not the order X.690 asks for, which is by tag: a sequence (16) and a
    printable string (19) come out with the string first, for the form bit of the
    sequence takes part in the comparison. *)
Theorem asn1_set_tag_order_refuted : exists seq str r r',
  econts r = [seq; str] /\ holds_elements r /\ tag_key seq < tag_key str /\
  encode_set r = Some r' /\ econts r' = [0x31 :: 5 :: str ++ seq].
Proof.
  exists [0x30; 0], [0x13; 1; 65], (E 0 false ID_NONE 5 [[0x30; 0]; [0x13; 1; 65]]). eexists.
  split; [reflexivity|]. split.
  { split; [reflexivity|]. repeat constructor; [exists 0x30, []|exists 0x13, [65]]; reflexivity. }
  split; [reflexivity|]. split; reflexivity.
Qed.
Print Assumptions asn1_set_tag_order_refuted.

(** C36: a bit string carries the number of unused bits, the caller's bits, and
    zeros in the unused ones. *)
Theorem asn1_bitstring : forall r bits n, Forall (fun b => b < 256) bits -> n <= 8 * N.of_nat (length bits) ->
  exists unused data, encode_bitstring r bits n = encode_prim r 3 (unused :: data) /\
    unused < 8 /\ n + unused = 8 * N.of_nat (length data) /\ Forall (fun b => b < 256) data /\
    (forall i, i < n -> bit_at data i = bit_at bits i) /\
    (forall i, n <= i < n + unused -> bit_at data i = false).
Proof. exact bitstring_ok. Qed.
Print Assumptions asn1_bitstring.
Example bitstring_ex : option_map econts (encode_bitstring en_init [0xab; 0xff; 0xff] 13) = Some [[3; 3; 3; 0xab; 0xf8]].
Proof. reflexivity. Qed.

(** C36: a time is written as the text of its calendar date, and reading the text
    gives back the time. *)
Theorem asn1_generalized_time : forall r t u, (0 <= t)%Z -> time2utc t = Some u -> (year u <= 9999)%Z ->
  encode_generalized_time r t = encode_prim r 24 (time_text true u 90) /\
  s2time (time_text true u 90) true = Some (S2Ok t).
Proof. exact gentime_ok. Qed.
Print Assumptions asn1_generalized_time.
Theorem asn1_utctime_partial : forall r t u, (0 <= t)%Z -> time2utc t = Some u -> (year u <= 2049)%Z -> (year u <> 2000)%Z ->
  encode_utctime r t = encode_prim r 23 (time_text false u 90) /\
  s2time (time_text false u 90) false = Some (S2Ok t).
Proof. exact utctime_ok. Qed.
Print Assumptions asn1_utctime_partial.
Example utctime_ex : time2utc 1700000000 = Some (U 2023 11 14 22 13 20 2) /\
  option_map econts (encode_utctime en_init 1700000000) = Some [23 :: 13 :: [50; 51; 49; 49; 49; 52; 50; 50; 49; 51; 50; 48; 90]].
Proof. split; reflexivity. Qed.
(** Missing for the full property: the year 2000, which is written with a colon in
    place of a digit, a text that the library itself does not read as a time. *)
Theorem asn1_utctime_2000_refuted : exists t u r, (0 <= t)%Z /\ time2utc t = Some u /\ year u = 2000%Z /\
  encode_utctime en_init t = Some r /\ econts r = [23 :: 13 :: [58; 48; 48; 50; 50; 57; 48; 48; 48; 48; 48; 48; 90]] /\
  s2time [58; 48; 48; 50; 50; 57; 48; 48; 48; 48; 48; 48; 90] false <> Some (S2Ok t).
Proof.
  exists 951782400%Z. eexists _, _. split; [discriminate|]. split; [reflexivity|]. split; [reflexivity|].
  split; [reflexivity|]. split; [reflexivity|]. vm_compute. discriminate.
Qed.
Print Assumptions asn1_utctime_2000_refuted.

(** C36: whatever bytes are given, a tree that is returned lies over them without gap
    or overlap. *)
Theorem asn1_decode_tiles : forall data r rest, Forall (fun b => b < 256) data ->
  asn1_decode data = Done r rest -> data = code_of r ++ rest /\ tiles r.
Proof. intros data r rest. apply decode_tiles. Qed.
Print Assumptions asn1_decode_tiles.
Example decode_tiles_ex : asn1_decode [0x30; 0x81; 3; 4; 1; 9; 1] =
  Done (DRes [0x30; 0x81; 3; 4; 1; 9] 0 true 16 [DRes [4; 1; 9] 0 false 4 [DRes [9] 0 false ID_NONE []]]) [1].
Proof. reflexivity. Qed.
(** C36: the decoder ends on every input. *)
Theorem asn1_decode_terminates : forall data, asn1_decode data <> Stuck.
Proof. intros data. apply decode_not_stuck. constructor. Qed.
Print Assumptions asn1_decode_terminates.
(** C36: its behaviour is undefined only if somewhere a length takes four bytes or
    more. *)
Theorem asn1_decode_defined : forall data, Forall (fun b => b < 256) data ->
  asn1_decode data = Undefined -> exists before tag k after, data = before ++ tag :: k :: after /\ 0x84 <= k <= 0x88.
Proof. intros data. apply decode_undef. Qed.
Print Assumptions asn1_decode_defined.
Theorem asn1_decode_undefined_refuted : asn1_decode ([4; 0x85; 0; 0; 0; 0; 1; 7]) = Undefined /\ asn1_decode [4; 0x84; 0x80; 0; 0; 0; 1] = Undefined.
Proof. split; reflexivity. Qed.
Print Assumptions asn1_decode_undefined_refuted.
(** An empty element whose length is in the long form is complete, yet reported
    incomplete; and the indefinite form is taken for length 0. *)
Theorem asn1_decode_complete_refuted : asn1_decode [4; 0x81; 0] = Incomplete /\ asn1_decode [4; 0] = Done (view (Prim 0 4 [])) [].
Proof. split; reflexivity. Qed.
Print Assumptions asn1_decode_complete_refuted.
Theorem asn1_indefinite_refuted : asn1_decode [0x30; 0x80; 2; 1; 5; 0; 0] = Done (DRes [0x30; 0x80] 0 true 16 []) [2; 1; 5; 0; 0].
Proof. reflexivity. Qed.
Print Assumptions asn1_indefinite_refuted.

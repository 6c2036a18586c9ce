(** WebSocket: generated frames are those of RFC 6455, and parsing reads them back. *)
Require Import List NArith Bool.
Import ListNotations.
Require Import Verif.Base Verif.EndianSpec Verif.EndianProofs Verif.WsModel Verif.WsSpec Verif.WsProofs.
Local Open Scope N_scope.

(** C37: what is generated is the frame, with the shortest length. *)
Theorem ws_generate_frame : forall w, wf_ws w ->
  let n := N.of_nat (length (f_payload (frame_of w))) in
  n < 2 ^ 63 -> (mask w = true -> n < 2 ^ 32) -> (control (opcode w) = true -> n <= 125) ->
  generate w = GOk (frame_bytes (frame_of w)).
Proof. exact generate_ok. Qed.
Print Assumptions ws_generate_frame.

Lemma setup_wf w buf fl rnd f op : wf_ws w -> bytes buf -> op < 16 -> rnd < 2 ^ 32 ->
  wf_ws (setup w (Some buf) (N.of_nat (length buf)) f op fl rnd).
Proof.
  intros (_ & _ & _ & S & K) B O R. unfold wf_ws, setup. cbn. repeat split; auto. destruct (client fl); auto.
Qed.

(** C37: a text or binary message, or a part of one, is sent with the opcode for its
    place in the message, and masked exactly when the sender is a client. *)
Theorem ws_data_frames : forall w buf fl rnd, wf_ws w -> bytes buf -> rnd < 2 ^ 32 ->
  client fl && server fl = false -> N.of_nat (length buf) < 2 ^ 32 ->
  let f op := F (last fl) false false false (if new fl then op else 0) (if client fl then Some (be_bytes 4 rnd) else None) buf in
  snd (text_generate w buf (N.of_nat (length buf)) fl rnd) = GOk (frame_bytes (f 1)) /\
  snd (binary_generate w buf (N.of_nat (length buf)) fl rnd) = GOk (frame_bytes (f 2)).
Proof.
  intros w buf fl rnd W B R C L f. unfold text_generate, binary_generate. rewrite C. cbn [snd gen].
  assert (O : forall op, op <= 2 -> (if new fl then op else 0) < 8).
  { intros op H. destruct (new fl); [|reflexivity]. eapply N.le_lt_trans; [exact H|reflexivity]. }
  assert (G : forall op, op <= 2 -> generate (setup w (Some buf) (N.of_nat (length buf)) (last fl) (if new fl then op else 0) fl rnd) = GOk (frame_bytes (f op))).
  { intros op H. specialize (O op H).
    assert (E : frame_of (setup w (Some buf) (N.of_nat (length buf)) (last fl) (if new fl then op else 0) fl rnd) = f op).
    { unfold frame_of, setup, f. cbn [fin rsv1 rsv2 rsv3 opcode mask key content status].
      destruct (client fl) eqn:EC.
      - destruct (N.eqb_spec (if new fl then op else 0) 8) as [Q|_]; [rewrite Q in O; discriminate|reflexivity].
      - destruct (N.eqb_spec (if new fl then op else 0) 8) as [Q|_]; [rewrite Q in O; discriminate|reflexivity]. }
    rewrite <- E. apply generate_ok.
    - apply setup_wf; auto. eapply N.lt_trans; [exact O|reflexivity].
    - rewrite E. eapply N.lt_trans; [exact L|reflexivity].
    - intros _. rewrite E. exact L.
    - cbn [setup opcode]. unfold control.
      destruct (N.eqb_spec (if new fl then op else 0) 8) as [Q|_]; [rewrite Q in O; discriminate|].
      destruct (N.eqb_spec (if new fl then op else 0) 9) as [Q|_]; [rewrite Q in O; discriminate|].
      destruct (N.eqb_spec (if new fl then op else 0) 10) as [Q|_]; [rewrite Q in O; discriminate|].
      discriminate. }
  split; apply G; discriminate.
Qed.
Print Assumptions ws_data_frames.
Example data_frames_ex : snd (text_generate ws_init [72; 105] 2 (Fl true true true false) 0x01020304) = GOk [0x81; 0x82; 1; 2; 3; 4; 73; 107].
Proof. reflexivity. Qed.

(** C37: parsing a frame gives flags, opcode, status and payload, and leaves the
    chain behind it.  The fields of the frame may lie in different buffers, with
    empty ones between, and the length need not be the shortest.  Missing for the
    full property: payloads of 65536 bytes and more, fields cut by the end of a
    buffer, and masked closing frames with certain statuses; see below. *)
Theorem ws_parse_partial : forall w f l7 ext bufs rest, wf_frame f -> status_ok w f ->
  N.of_nat (length (f_payload f)) < 2 ^ 16 -> l7 <> 127 ->
  len_field (N.of_nat (length (f_payload f))) l7 ext -> laid (fields f (l7, ext)) bufs rest ->
  parse w bufs = POk (received w f) (skip_empty rest).
Proof. exact parse_laid. Qed.
Print Assumptions ws_parse_partial.
Example parse_ex : parse ws_init [[0x88]; []; [0x84]; [1; 2; 3; 4]; [2; 0xea]; [107; 107; 9]; []; [8]] =
  POk (W (Some [104; 111]) 2 true false false false 8 true 1000 0x01020304) [[9]; []; [8]].
Proof. reflexivity. Qed.

(** C37: generating and parsing. *)
Theorem ws_round_trip_partial : forall w buf w0 bufs rest, wf_ws w ->
  let f := frame_of w in
  N.of_nat (length (f_payload f)) < 2 ^ 16 -> (control (opcode w) = true -> N.of_nat (length (f_payload f)) <= 125) ->
  status_ok w0 f -> generate w = GOk buf -> laid [buf] bufs rest ->
  parse w0 bufs = POk (received w0 f) (skip_empty rest).
Proof.
  intros w buf w0 bufs rest W f L C S G H.
  rewrite generate_ok in G; auto.
  - injection G as <-. apply parse_frame; auto. destruct W as (W1 & W2 & W3 & W4 & W5).
    unfold f, wf_frame, frame_of. cbn [f_op f_payload f_key]. split; [auto|]. split.
    + destruct (opcode w =? 8); [apply bytes_app; [apply be_bytes_bytes|auto]|auto].
    + destruct (mask w); [|exact I]. split; [apply be_bytes_length|apply be_bytes_bytes].
  - eapply N.lt_trans; [exact L|reflexivity].
  - intros _. eapply N.lt_trans; [exact L|reflexivity].
Qed.
Print Assumptions ws_round_trip_partial.
Example round_trip_ex :
  let w := W (Some (repeat 7 300)) 300 true false true false 2 true 0 0xdeadbeef in
  exists buf, generate w = GOk buf /\ length buf = 308%nat /\
  parse ws_init [buf ++ [1; 2]] = POk w [[1; 2]].
Proof. eexists. split; [vm_compute; reflexivity|]. split; [reflexivity|vm_compute; reflexivity]. Qed.

(** C37: a stream of frames, each of them uncut, is read frame by frame. *)
Theorem ws_stream_partial : forall w fs l, receives w fs l -> forall bufs rest, laid (map frame_bytes fs) bufs rest ->
  skip_empty rest = [] -> parse_all (length fs) w (skip_empty bufs) = Some l.
Proof. exact stream_ok. Qed.
Print Assumptions ws_stream_partial.
Example stream_ex : option_map (map content)
  (parse_all 3 ws_init (skip_empty [[]; [0x01; 1; 65; 0x80; 2; 66; 67]; [0x89; 0]])) = Some [Some [65]; Some [66; 67]; None].
Proof. reflexivity. Qed.

(** C37: with only the first fields there, the answer is "not yet". *)
Theorem ws_not_yet_partial : forall w f l7 ext bufs rest done g todo, wf_frame f ->
  N.of_nat (length (f_payload f)) < 2 ^ 16 -> l7 <> 127 ->
  len_field (N.of_nat (length (f_payload f))) l7 ext ->
  fields f (l7, ext) = done ++ g :: todo -> g <> [] ->
  laid done bufs rest -> skip_empty rest = [] ->
  exists s, parse w bufs = PNotYet (set_status w s).
Proof. exact parse_truncated. Qed.
Print Assumptions ws_not_yet_partial.
Example not_yet_ex : parse ws_init [[0x88; 0x84]; []] = PNotYet ws_init /\ parse ws_init [[0x88; 4; 3; 232]] = PNotYet (set_status ws_init 1000).
Proof. split; reflexivity. Qed.

(** C37: nothing but a frame is accepted. *)
Theorem ws_parse_sound : forall w bufs w' bufs', Forall bytes bufs -> parse w bufs = POk w' bufs' ->
  exists f l7 ext rest, wf_frame f /\ N.of_nat (length (f_payload f)) < 2 ^ 16 /\
    len_field (N.of_nat (length (f_payload f))) l7 ext /\ l7 <> 127 /\
    laid (fields f (l7, ext)) bufs rest /\ bufs' = skip_empty rest.
Proof. exact parse_sound. Qed.
Print Assumptions ws_parse_sound.

(** A frame that ends before its payload does, or whose payload goes on in the next
    buffer, is read behind the end of the buffer. *)
Theorem ws_split_refuted : exists f bufs, wf_frame f /\ concat bufs = frame_bytes f /\ parse ws_init bufs = PUndef /\
  parse ws_init [firstn 3 (frame_bytes f)] = PUndef.
Proof.
  exists (F true false false false 1 None [72; 105]), [[0x81; 2; 72]; [105]].
  split; [split; [reflexivity|split; [repeat constructor|exact I]]|]. repeat split.
Qed.
Print Assumptions ws_split_refuted.
(** Frames with an eight-byte length cannot be read: an int is shifted by 56. *)
Theorem ws_long_refuted : forall w f bufs rest, 2 ^ 16 <= N.of_nat (length (f_payload f)) ->
  laid (fields f (short_len (N.of_nat (length (f_payload f))))) bufs rest -> parse w bufs = PUndef.
Proof.
  intros w f bufs rest L H. set (n := N.of_nat (length (f_payload f))) in *.
  assert (E : short_len n = (127, be_bytes 8 n)).
  { unfold short_len. destruct (N.ltb_spec n 126) as [Q|_].
    - exfalso. apply (N.lt_irrefl n). eapply N.lt_le_trans; [exact Q|]. eapply N.le_trans; [|exact L]. discriminate.
    - destruct (N.ltb_spec n (2 ^ 16)) as [Q|_]; [|reflexivity]. exfalso. apply (N.lt_irrefl n). eapply N.lt_le_trans; eauto. }
  rewrite E in H. eapply parse_long; [exact H|discriminate].
Qed.
Print Assumptions ws_long_refuted.
(** The status given for closing is not sent. *)
Theorem ws_close_status_refuted : exists w, close_generate ws_init (Some [98; 121; 101]) 1000 (Fl false false false true) 0 = (w, GOk [0x88; 5; 0; 0; 98; 121; 101]).
Proof. eexists. reflexivity. Qed.
Print Assumptions ws_close_status_refuted.
(** A masked closing frame whose status equals the first half of the key is read with
    status 0 and a garbled reason; an empty one changes the status left from before. *)
Theorem ws_masked_close_refuted :
  let f := F true false false false 8 (Some [3; 232; 1; 2]) [3; 232; 98; 121; 101] in
  wf_frame f /\ parse ws_init [frame_bytes f] = POk (W (Some [96; 147; 103]) 3 true false false false 8 true 0 0x03e80102) [] /\
  parse (W None 0 true false false false 8 false 1000 0) [[0x88; 0x80; 1; 2; 3; 4]] =
    POk (W None 0 true false false false 8 true 746 0x01020304) [].
Proof. split; [split; [reflexivity|split; [repeat constructor|split; [reflexivity|repeat constructor]]]|]. split; reflexivity. Qed.
Print Assumptions ws_masked_close_refuted.

(** * C29: forward error correction *)

From Coq Require Import List Arith NArith Bool Lia.
From Verif Require Import Base FecModel FecSpec FecProofs.
Import ListNotations.
Local Open Scope N_scope.

(** [group m i ps] in [FecProofs] is the [i]-th group of [m] packets. *)
Goal forall m i ps, group m i ps = firstn m (skipn (i * m) ps).
Proof. reflexivity. Qed.

(** A stream that consists of whole groups is encoded: one FEC packet per group. *)
Theorem fec_encodes : forall fseq pt ps m k,
  pt < 128 -> fseq < 65536 -> (1 <= m <= 48)%nat -> (1 <= k)%nat -> length ps = (k * m)%nat ->
  (forall i, (i < k)%nat -> protected_group pt (firstn m (skipn (i * m) ps))) ->
  exists fs, fec_encode fseq pt ps m = Some (Some (fs, (fseq + N.of_nat k) mod 65536)) /\
             length fs = k.
Proof.
  intros fseq pt ps m k Hpt Hs Hm Hk Hl Hg. exact (enc_total fseq pt ps m k Hpt Hm Hk Hl Hs Hg).
Qed.
Print Assumptions fec_encodes.

(** The FEC packets are RTP packets of the source they protect, numbered one
    after the other, with the timestamp of the last packet of the group. *)
Theorem fec_packets : forall fseq pt ps m fs fseq' i f,
  pt < 128 -> fseq < 65536 ->
  fec_encode fseq pt ps m = Some (Some (fs, fseq')) ->
  nth_error fs i = Some f ->
  let g := firstn m (skipn (i * m) ps) in
  protected_group pt g ->
  Forall (fun b => b < 256) f /\ (26 <= length f <= 1472)%nat /\ version f = 2 /\
  payload_type f = pt /\ sequence f = (fseq + N.of_nat i) mod 65536 /\
  source f = source (hd [] g) /\
  firstn 4 (skipn 4 f) = firstn 4 (skipn 4 (nth (length g - 1) g [])).
Proof.
  intros fseq pt ps m fs fseq' i f Hpt Hs E Hi g Hg.
  destruct (enc_inv fseq pt ps m fs fseq' Hs E) as (_ & _ & N).
  exact (packet_rtp pt ((fseq + N.of_nat i) mod 65536) g f Hpt (N.mod_lt _ 65536 ltac:(discriminate)) Hg (N i f Hi)).
Qed.
Print Assumptions fec_packets.

(** The theorem of C29: when one packet of a group is missing, the decoder gives
    that packet, byte for byte, whatever the order of arrival. *)
Theorem fec_recovers : forall fseq pt ps m fs fseq' i f rcv p,
  pt < 128 -> fseq < 65536 ->
  fec_encode fseq pt ps m = Some (Some (fs, fseq')) ->
  nth_error fs i = Some f ->
  let g := firstn m (skipn (i * m) ps) in
  protected_group pt g ->
  arrives pt g f rcv ->
  missing g rcv = [p] ->
  fec_decode pt rcv = Some (Some [p]).
Proof.
  intros fseq pt ps m fs fseq' i f rcv p Hpt Hs E Hi g Hg A M.
  destruct (enc_inv fseq pt ps m fs fseq' Hs E) as (_ & _ & N). apply N in Hi.
  destruct (packet_shape pt ((fseq + N.of_nat i) mod 65536) g Hpt Hg) as (k & f' & R & B & E' & SH).
  change (group m i ps) with g in Hi. rewrite Hi in E'. injection E' as <-.
  exact (decode_one pt _ g Hpt Hg k f SH R B rcv A p M).
Qed.
Print Assumptions fec_recovers.

(** Nothing lost, nothing recovered. *)
Theorem fec_nothing_lost : forall fseq pt ps m fs fseq' i f rcv,
  pt < 128 -> fseq < 65536 ->
  fec_encode fseq pt ps m = Some (Some (fs, fseq')) ->
  nth_error fs i = Some f ->
  let g := firstn m (skipn (i * m) ps) in
  protected_group pt g ->
  arrives pt g f rcv ->
  missing g rcv = [] ->
  fec_decode pt rcv = Some (Some []).
Proof.
  intros fseq pt ps m fs fseq' i f rcv Hpt Hs E Hi g Hg A M.
  destruct (enc_inv fseq pt ps m fs fseq' Hs E) as (_ & _ & N). apply N in Hi.
  destruct (packet_shape pt ((fseq + N.of_nat i) mod 65536) g Hpt Hg) as (k & f' & R & B & E' & SH).
  change (group m i ps) with g in Hi. rewrite Hi in E'. injection E' as <-.
  exact (decode_none pt _ g Hpt Hg k f SH R B rcv A M).
Qed.
Print Assumptions fec_nothing_lost.

(** Two or more lost: the decoder says so, and gives no packet. *)
Theorem fec_too_many_lost : forall fseq pt ps m fs fseq' i f rcv,
  pt < 128 -> fseq < 65536 ->
  fec_encode fseq pt ps m = Some (Some (fs, fseq')) ->
  nth_error fs i = Some f ->
  let g := firstn m (skipn (i * m) ps) in
  protected_group pt g ->
  arrives pt g f rcv ->
  (2 <= length (missing g rcv))%nat ->
  fec_decode pt rcv = Some None.
Proof.
  intros fseq pt ps m fs fseq' i f rcv Hpt Hs E Hi g Hg A M.
  destruct (enc_inv fseq pt ps m fs fseq' Hs E) as (_ & _ & N). apply N in Hi.
  destruct (packet_shape pt ((fseq + N.of_nat i) mod 65536) g Hpt Hg) as (k & f' & R & B & E' & SH).
  change (group m i ps) with g in Hi. rewrite Hi in E'. injection E' as <-.
  destruct (missing g rcv) as [|p [|q r]] eqn:X; [cbn in M; lia|cbn in M; lia|].
  exact (decode_many pt _ g Hpt Hg k f SH R B rcv A p q r X).
Qed.
Print Assumptions fec_too_many_lost.

(** Packets of one source with consecutive sequence numbers make a group. *)
Theorem fec_consecutive : forall pt g,
  (1 <= length g <= 48)%nat -> Forall rtp g ->
  Forall (fun p => payload_type p <> pt) g ->
  (forall p q, In p g -> In q g -> source p = source q) ->
  consecutive g -> protected_group pt g.
Proof. exact consecutive_group. Qed.
Print Assumptions fec_consecutive.

(** ** A case *)

Definition pkt (seq : N) (payload : list N) : list N :=
  [128; 96; seq / 256; seq mod 256; 0; 0; 1; seq mod 256; 222; 173; 190; 239] ++ payload.

Definition pA := pkt 700 [1; 2; 3; 4; 5].
Definition pB := pkt 701 [].
Definition pC := pkt 702 [9; 9; 9; 200; 201; 202; 203].
Definition pD := pkt 703 [7].
Definition stream := [pA; pB; pC; pD].

Lemma g2 a b x y : 2 <= a -> a < 65535 -> b = a + 1 -> Forall (fun c => c < 256) x -> Forall (fun c => c < 256) y ->
  (length x <= 1430)%nat -> (length y <= 1430)%nat -> protected_group 127 [pkt a x; pkt b y].
Proof.
  intros Ha Ha' -> Hx Hy Lx Ly.
  assert (R : forall s z, s < 65536 -> Forall (fun c => c < 256) z -> (length z <= 1430)%nat -> rtp (pkt s z)).
  { intros s z Hs Hz Lz. unfold pkt. split; [|split; [|reflexivity]].
    - apply Forall_app. split; [|exact Hz].
      assert (s / 256 < 256) by (apply N.div_lt_upper_bound; lia). assert (s mod 256 < 256) by (apply N.mod_lt; lia).
      repeat (apply Forall_cons || apply Forall_nil); first [reflexivity|assumption].
    - rewrite app_length. cbn [length]. lia. }
  assert (S : forall s z, sequence (pkt s z) = s).
  { intros. unfold sequence, octet, pkt. cbn [app nth]. pose proof (N.div_mod s 256). lia. }
  apply fec_consecutive.
  - cbn [length]. lia.
  - constructor; [apply R; auto; lia|]. constructor; [apply R; auto; lia|constructor].
  - repeat (apply Forall_cons || apply Forall_nil); discriminate.
  - intros p q [<-|[<-|[]]] [<-|[<-|[]]]; reflexivity.
  - intros i Hi. destruct i as [|[|i]]; cbn [nth hd length] in *; rewrite ?S; lia.
Qed.

Ltac bytes_of := repeat (apply Forall_cons || apply Forall_nil); reflexivity.
Ltac len := apply Nat.leb_le; vm_compute; reflexivity.
Ltac lens := split; len.

(** Two groups of two; in the second, the shorter packet is lost and the longer
    one comes twice, behind the FEC packet and an old packet. *)
Example fec_ex : exists f0 f1,
  fec_encode 65535 127 stream 2 = Some (Some ([f0; f1], 1)) /\
  protected_group 127 [pC; pD] /\
  arrives 127 [pC; pD] f1 [pA; f1; pC; pC] /\ missing [pC; pD] [pA; f1; pC; pC] = [pD] /\
  fec_decode 127 [pA; f1; pC; pC] = Some (Some [pD]) /\
  fec_decode 127 [pD; f1] = Some (Some [pC]) /\
  fec_decode 127 [pD; pC; f1] = Some (Some []) /\
  fec_decode 127 [f1] = Some None.
Proof.
  eexists. eexists. split; [vm_compute; reflexivity|]. split.
  - apply g2; [discriminate|reflexivity|reflexivity|bytes_of|bytes_of|len|len].
  - split; [|vm_compute; repeat split].
    split.
    + eexists [pA], [pC; pC]. split; [reflexivity|]. repeat (apply Forall_cons || apply Forall_nil); vm_compute; discriminate.
    + intros p [<-|[<-|[<-|[<-|[]]]]] ne; [right|contradiction|left; now left|left; now left].
      split; [lens|]. split; [bytes_of|reflexivity].
Qed.

(** ** What does not hold *)

(** A stream that is not a whole number of groups is read past its end. *)
Theorem fec_incomplete_group_refuted :
  exists ps, Forall rtp ps /\ protected_group 127 (firstn 2 ps) /\ fec_encode 0 127 ps 2 = None.
Proof.
  exists [pA; pB; pC]. split; [|split; [|vm_compute; reflexivity]].
  - repeat (apply Forall_cons || apply Forall_nil); (split; [bytes_of|split; [lens|reflexivity]]).
  - apply g2; [discriminate|reflexivity|reflexivity|bytes_of|bytes_of|len|len].
Qed.

(** Sequence numbers that wrap around: the shift is undefined. *)
Theorem fec_wraparound_refuted : fec_encode 0 127 [pkt 65535 [1]; pkt 0 [2]] 2 = None.
Proof. vm_compute. reflexivity. Qed.

(** A group of at most sixteen packets whose sequence numbers are sixteen apart:
    the shift is undefined. *)
Theorem fec_gap_refuted : fec_encode 0 127 [pkt 1 [1]; pkt 17 [2]] 2 = None.
Proof. vm_compute. reflexivity. Qed.

(** Further apart, the long mask is written but not announced.  A lost packet is
    then not recovered: the decoder says that nothing was lost. *)
Theorem fec_long_mask_refuted :
  exists f p q, fec_encode 0 127 [p; q] 2 = Some (Some ([f], 1)) /\ rtp p /\ rtp q /\
    arrives 127 [p; q] f [p; f] /\ missing [p; q] [p; f] = [q] /\
    fec_decode 127 [p; f] = Some (Some []).
Proof.
  eexists. exists (pkt 1 [1]), (pkt 18 [2]). split; [vm_compute; reflexivity|].
  split; [split; [bytes_of|split; [lens|reflexivity]]|].
  split; [split; [bytes_of|split; [lens|reflexivity]]|].
  split; [|vm_compute; repeat split].
  split.
  - eexists [_], []. split; [reflexivity|]. repeat (apply Forall_cons || apply Forall_nil); vm_compute; discriminate.
  - intros p [<-|[<-|[]]] ne; [left; now left|contradiction].
Qed.

(** A packet behind the range of the mask, of the next group, say: the shift of
    the decoder is undefined. *)
Theorem fec_later_packet_refuted :
  exists f, fec_encode 0 127 [pA; pB] 2 = Some (Some ([f], 1)) /\
    fec_decode 127 [pA; f] = Some (Some [pB]) /\
    fec_decode 127 [pA; f; pkt 716 [1]] = None.
Proof. eexists. split; [vm_compute; reflexivity|]. vm_compute. repeat split. Qed.

(** Padding: the length of an FEC packet need not be a multiple of four. *)
Theorem fec_padding_refuted :
  exists f, fec_encode 0 127 [pkt 1 [1]] 1 = Some (Some ([f], 1)) /\
    octet 0 f = 160 /\ (length f mod 4 = 2)%nat.
Proof. eexists. split; [vm_compute; reflexivity|]. vm_compute. repeat split. Qed.

(** A damaged FEC packet that passes the checks of the lengths makes the decoder
    copy outside its buffers. *)
Theorem fec_decode_total_refuted :
  exists f, Forall (fun b => b < 256) f /\ (26 <= length f <= 1472)%nat /\ payload_type f = 127 /\
    fec_decode 127 [f] = None.
Proof.
  exists ([128; 127; 0; 0; 0; 0; 0; 0; 0; 0; 0; 0] ++ [0; 0; 0; 1; 0; 0; 0; 0; 0; 0] ++ [0; 0] ++ [128; 0] ++ [0; 0; 0; 0]).
  split; [bytes_of|]. split; [lens|].
  split; [reflexivity|]. vm_compute. reflexivity.
Qed.

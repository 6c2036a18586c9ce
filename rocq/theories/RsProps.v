(** * Reed-Solomon coding: the properties *)

From Coq Require Import List Arith NArith Lia Bool.
From Coq.Strings Require Import Byte.
From Verif Require Import Base RsModel RsSpec GfProofs RsProofs RsExact.
Import ListNotations.
Local Open Scope nat_scope.

(** The tables implement the byte field: sums are exclusive or, products are
    products of polynomials, and a quotient times its divisor is the dividend. *)
Theorem rs_field (a b : byte) :
  to_N (gf_add a b) = N.lxor (to_N a) (to_N b) /\
  to_N (gf_mul a b) = times (to_N a) (to_N b) /\
  (b <> x00 -> gf_mul (gf_div a b) b = a).
Proof.
  split; [apply to_N_add|]. split; [apply gf_mul_times|]. intros H.
  rewrite gf_div_mul, <- gf_mul_assoc, gf_div_one by exact H. rewrite gf_mul_comm. apply gf_mul_1_l.
Qed.
Print Assumptions rs_field.

(** Encoding is refused exactly for empty dimensions; otherwise the result holds
    [n + k] blocks, namely the data followed by the parity blocks. *)
Theorem rs_encode_correct (data : list byte) (len n k : nat) :
  length data = n * len -> (N.of_nat k <= 2 ^ 64)%N ->
  (rs_encode data len n k = None <-> len = 0 \/ n = 0 \/ k = 0) /\
  forall r, rs_encode data len n k = Some r ->
    rr_num r = n + k /\ rr_len r = (n + k) * len /\ encoding len n k data (rr_data r) /\
    forall i, (i < n + k -> exists p, rr_get r i = Some p /\ firstn len p = block len (rr_data r) i) /\
              (n + k <= i -> rr_get r i = None).
Proof.
  intros Hd Hk. split.
  - unfold rs_encode.
    destruct (Nat.eqb_spec len 0), (Nat.eqb_spec n 0), (Nat.eqb_spec k 0); cbn [orb];
      (split; [intros E; try discriminate E; auto|intros [H|[H|H]]; try reflexivity; contradiction]).
  - intros r E. apply rs_encode_some in E. destruct E as (Hl & Hn & Hk0 & ->). cbn [rr_num rr_len rr_data].
    split; [reflexivity|]. split; [reflexivity|].
    split; [apply enc_encoding; assumption|]. intros i. unfold rr_get. cbn [rr_num rr_len rr_data].
    split; intros Hi; destruct (Nat.leb_spec (n + k) i); try lia; [|reflexivity].
    eexists. split; [reflexivity|]. unfold block.
    replace ((n + k) * len / (n + k)) with len; [reflexivity|].
    rewrite Nat.mul_comm, Nat.div_mul by lia. reflexivity.
Qed.
Print Assumptions rs_encode_correct.

(** C28, safety: whichever [n] or more blocks arrive, and in whatever order the
    losses fall, decoding returns the data or refuses.  It never returns
    anything else and never leaves its arrays. *)
Theorem rs_decode_never_wrong (data : list byte) (len n k : nat) (r : rs_result)
    (v : list (option (list byte))) :
  length data = n * len -> rs_encode data len n k = Some r ->
  received len (n + k) (rr_data r) v -> n <= survivors v ->
  rs_decode v len n k = Some (Some (mkRR data n (n * len))) \/ rs_decode v len n k = Some None.
Proof.
  intros Hd He Hr Hs. apply rs_encode_some in He. destruct He as (_ & Hn & Hk & ->).
  destruct (rs_decode_cases len n k data v Hn Hk Hd Hr Hs) as [[_ E]|[_ E]]; auto.
Qed.
Print Assumptions rs_decode_never_wrong.

(** It refuses exactly when the first [n] blocks that arrived do not determine
    the data: some other data would have given the same blocks. *)
Theorem rs_decode_refuses_iff (data : list byte) (len n k : nat) (r : rs_result)
    (v : list (option (list byte))) :
  length data = n * len -> rs_encode data len n k = Some r ->
  received len (n + k) (rr_data r) v -> n <= survivors v ->
  (rs_decode v len n k = Some None <->
   exists data' r', length data' = n * len /\ data' <> data /\
     rs_encode data' len n k = Some r' /\
     forall i, In i (firstn n (arrived v)) -> block len (rr_data r') i = block len (rr_data r) i).
Proof. exact (rs_refuses len n k data r v). Qed.
Print Assumptions rs_decode_refuses_iff.

(** C28, the full claim for one pair of sizes: after any loss that leaves [n]
    blocks, decoding returns the data. *)
Definition always_recovers (n k : nat) : Prop :=
  forall len data r v,
    length data = n * len -> rs_encode data len n k = Some r ->
    received len (n + k) (rr_data r) v -> n <= survivors v ->
    rs_decode v len n k = Some (Some (mkRR data n (n * len))).

(** It holds for these sizes and for no others. *)
Theorem rs_recovers_iff (n k : nat) : 0 < n -> 0 < k ->
  (always_recovers n k <->
   k = 1 \/ n = 1 \/ (k = 2 /\ n <= 255) \/ (k = 3 /\ n <= 10) \/ (k = 4 /\ n <= 6)
   \/ (k <= 8 /\ n <= 3)).
Proof.
  intros Hn Hk. unfold always_recovers. rewrite (recovers_iff n k Hn Hk). unfold safe.
  rewrite !orb_true_iff, !andb_true_iff, !Nat.eqb_eq, !Nat.leb_le. tauto.
Qed.
Print Assumptions rs_recovers_iff.

(** C28 in general does not hold: with four data and five parity blocks, losing
    four parity blocks and one data block is already too much. *)
Theorem rs_recovers_refuted : ~ forall n k, 0 < n -> 0 < k -> always_recovers n k.
Proof.
  intros H. assert (A : always_recovers 4 5) by (apply H; lia).
  apply rs_recovers_iff in A; lia.
Qed.
Print Assumptions rs_recovers_refuted.

(** With fewer than [n] blocks the call is not refused: it reads behind the end
    of the array of block pointers. *)
Theorem rs_decode_short (v : list (option (list byte))) (len n k : nat) :
  0 < k -> length v = n + k -> survivors v < n -> rs_decode v len n k = None.
Proof.
  intros Hk Hv Hs. unfold rs_decode.
  destruct (Nat.eqb_spec n 0); [lia|]. destruct (Nat.eqb_spec k 0); [lia|]. cbn [andb].
  rewrite co_inverse_eq by lia. destruct (Nat.leb_spec n (survivors v)); [lia|]. reflexivity.
Qed.
Print Assumptions rs_decode_short.

Theorem rs_decode_defined_refuted :
  ~ forall data len n k r v, length data = n * len -> rs_encode data len n k = Some r ->
    received len (n + k) (rr_data r) v -> rs_decode v len n k <> None.
Proof.
  intros H.
  apply (H [x01; x02] 1 2 1 (mkRR (enc_of 1 2 1 [x01; x02]) 3 3) [None; None; None]).
  - reflexivity.
  - reflexivity.
  - split; [reflexivity|]. intros [|[|[|i]]] b E; cbn in E; try discriminate E.
    destruct i; discriminate E.
  - reflexivity.
Qed.
Print Assumptions rs_decode_defined_refuted.

(** Without parity blocks decoding glues the blocks together. *)
Theorem rs_decode_plain (data : list byte) (len n : nat) :
  0 < n -> length data = n * len ->
  rs_decode (map (fun i => Some (block len data i)) (seq 0 n)) len n 0
  = Some (Some (mkRR data n (len * n))).
Proof.
  intros Hn Hd. unfold rs_decode. destruct (Nat.eqb_spec n 0); [lia|]. cbn [andb Nat.eqb].
  assert (G : forall m s, (s + m) * len <= length data ->
     copy_all len m (map (fun i => Some (block len data i)) (seq s m))
     = Some (firstn (m * len) (skipn (s * len) data))).
  { induction m as [|m IH]; intros s H; cbn [copy_all seq map]; [reflexivity|].
    unfold read_block.
    assert (L : length (block len data s) = len).
    { unfold block. rewrite firstn_length, skipn_length. nia. }
    rewrite L, Nat.leb_refl. cbn [obind]. rewrite IH by lia. cbn [obind]. f_equal.
    rewrite <- L at 1. rewrite firstn_all. unfold block.
    replace (S s * len) with (s * len + len) by lia.
    assert (K : forall (l : list byte) a b, firstn a l ++ firstn b (skipn a l) = firstn (a + b) l).
    { induction l as [|y l IHl]; intros [|a] b; cbn; try reflexivity; [rewrite firstn_nil; reflexivity|].
      f_equal. apply IHl. }
    assert (K2 : forall (l : list byte) a b, skipn (a + b) l = skipn b (skipn a l)).
    { induction l as [|y l IHl]; intros [|a] b; cbn; try reflexivity; [destruct b; reflexivity|]. apply IHl. }
    rewrite K2, K. f_equal. }
  rewrite G by lia. cbn [obind]. cbn [Nat.mul skipn]. rewrite <- Hd, firstn_all. reflexivity.
Qed.
Print Assumptions rs_decode_plain.

(** ** A case: three blocks of two bytes, two parity blocks, two data blocks lost *)

Definition ex_data : list byte := [x10; x80; x07; xff; x00; x42].

Example ex_encode :
  rs_encode ex_data 2 3 2 = Some (mkRR [x10; x80; x07; xff; x00; x42; x17; x3d; x1e; x95] 5 10).
Proof. vm_compute. reflexivity. Qed.

Definition ex_v : list (option (list byte)) := [None; Some [x07; xff]; None; Some [x17; x3d]; Some [x1e; x95]].

Example ex_received : received 2 5 [x10; x80; x07; xff; x00; x42; x17; x3d; x1e; x95] ex_v /\ 3 <= survivors ex_v.
Proof.
  split; [|cbn; lia]. split; [reflexivity|].
  intros [|[|[|[|[|i]]]]] b E; cbn in E; try discriminate E; try (injection E as <-; reflexivity).
  destruct i; discriminate E.
Qed.

Example ex_decode : rs_decode ex_v 2 3 2 = Some (Some (mkRR ex_data 3 6)).
Proof. vm_compute. reflexivity. Qed.

(** The loss that cannot be repaired. *)
Example ex_refused :
  rs_decode [Some [x01]; Some [x02]; Some [x03]; None; None; None; None; None; Some [x32]] 1 4 5 = Some None.
Proof. vm_compute. reflexivity. Qed.

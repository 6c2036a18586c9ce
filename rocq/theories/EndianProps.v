(** C40: byte-order helpers. *)
Require Import List Arith NArith.
Require Import Verif.Base Verif.EndianModel Verif.EndianSpec Verif.EndianProofs.
Import ListNotations.
Open Scope N_scope.

(** Encoding a number in k <= 8 bytes overwrites exactly the first k bytes, with the big-endian digits of the number. *)
Theorem bigendian_encode_writes :
  forall k n buf rest, (k <= 8)%nat -> n < 2^64 -> length buf = k ->
    exists out, be_encode k n (buf ++ rest) = Some (out, rest) /\ length out = k /\ bytes out /\
                be_value out = n mod 256 ^ N.of_nat k.
Proof. exact encode_value. Qed.
Print Assumptions bigendian_encode_writes.

(** Decoding at most 8 bytes consumes exactly them and yields the number they denote, if the target is wide enough. *)
Theorem bigendian_decode_reads :
  forall w l rest, bytes l -> (length l <= 8)%nat -> be_value l < 2^w ->
    be_decode (length l) w 0 (l ++ rest) = Some (be_value l, rest).
Proof. exact decode_bytes. Qed.
Print Assumptions bigendian_decode_reads.

Theorem bigendian_round_trip :
  forall k n w buf rest, (k <= 8)%nat -> n < 2^64 -> n < 256 ^ N.of_nat k -> n < 2^w -> length buf = k ->
    exists out, be_encode k n (buf ++ rest) = Some (out, rest) /\ length out = k /\
                be_decode k w 0 (out ++ rest) = Some (n, rest).
Proof. exact endian_round_trip. Qed.
Print Assumptions bigendian_round_trip.

Example bigendian_meets :
  258 < 2^64 /\ 258 < 256 ^ N.of_nat 3 /\ 258 < 2^16 /\ be_encode 3 258 [9;9;9;7] = Some ([0;1;2], [7]) /\
  be_decode 3 16 0 [0;1;2;7] = Some (258, [7]) /\ be_value [0;1;2] = 258.
Proof. repeat split. Qed.

(** * Groups of RTP packets and what arrives of them *)

From Coq Require Import List Arith NArith Bool.
Import ListNotations.
Local Open Scope N_scope.

(** The fields of an RTP packet, read off its bytes. *)
Definition octet (i : nat) (p : list N) : N := nth i p 0.
Definition version (p : list N) : N := octet 0 p / 64.
Definition payload_type (p : list N) : N := octet 1 p mod 128.
Definition sequence (p : list N) : N := 256 * octet 2 p + octet 3 p.
Definition source (p : list N) : N :=
  16777216 * octet 8 p + 65536 * octet 9 p + 256 * octet 10 p + octet 11 p.

(** An RTP packet of a size the encoder accepts. *)
Definition rtp (p : list N) : Prop :=
  Forall (fun b => b < 256) p /\ (12 <= length p <= 1442)%nat /\ version p = 2.

(** A group that one FEC packet protects: at most 48 packets of one source, none
    of them with the payload type [pt] of FEC packets, with different sequence
    numbers.  The first packet has the least, and the others follow within the
    range of the mask: 16 numbers for groups of up to 16 packets, 48 for larger
    groups. *)
Definition protected_group (pt : N) (g : list (list N)) : Prop :=
  (1 <= length g <= 48)%nat /\
  Forall rtp g /\
  Forall (fun p => payload_type p <> pt) g /\
  NoDup (map sequence g) /\
  (forall p q, In p g -> In q g -> source p = source q) /\
  let base := sequence (hd [] g) in
  let range := if Nat.leb (length g) 16 then 16 else 48 in
  Forall (fun p => base <= sequence p < base + range) g.

(** Consecutive sequence numbers that do not wrap around. *)
Definition consecutive (g : list (list N)) : Prop :=
  forall i, (i < length g)%nat ->
  sequence (nth i g []) = sequence (hd [] g) + N.of_nat i.

(** [rcv] is what arrives of the group [g] with FEC packet [f], in any order:
    the FEC packet once; packets of the group, some of them perhaps more than
    once; and perhaps older packets, with smaller sequence numbers. *)
Definition arrives (pt : N) (g : list (list N)) (f : list N) (rcv : list (list N)) : Prop :=
  (exists before after, rcv = before ++ f :: after /\
     Forall (fun p => payload_type p <> pt) (before ++ after)) /\
  forall p, In p rcv -> p <> f ->
    In p g \/
    ((12 <= length p <= 1472)%nat /\ Forall (fun b => b < 256) p /\
     sequence p < sequence (hd [] g)).

Definition same_packet (p q : list N) : bool :=
  if list_eq_dec N.eq_dec p q then true else false.

(** The packets of the group that are missing. *)
Definition missing (g rcv : list (list N)) : list (list N) :=
  filter (fun p => negb (existsb (same_packet p) rcv)) g.

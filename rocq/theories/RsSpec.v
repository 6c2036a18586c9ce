(** * What Reed-Solomon coding should do

    The byte field, blocks, encodings and received blocks, without logarithm
    tables or matrices. *)

From Coq Require Import List Arith NArith.
From Coq.Strings Require Import Byte.
Import ListNotations.
Local Open Scope N_scope.

(** Bytes as polynomials over the field of two elements, modulo
    x^8 + x^5 + x^3 + x^2 + 1: multiplication by x, and multiplication by
    adding up the shifted factors. *)
Definition times_x (a : N) : N :=
  if a <? 128 then 2 * a else N.lxor (2 * a) 0x12d.

Fixpoint poly_times (bits : nat) (a b : N) : N :=
  match bits with
  | O => 0
  | S k => N.lxor (if N.odd b then a else 0) (poly_times k (times_x a) (N.div2 b))
  end.

(** The product of two bytes. *)
Definition times (a b : N) : N := poly_times 8 a b.

(** [f 0 xor ... xor f (n-1)] *)
Fixpoint xor_sum (n : nat) (f : nat -> N) : N :=
  match n with
  | O => 0
  | S k => N.lxor (xor_sum k f) (f k)
  end.

(** Block [i] of an array of blocks of [len] bytes. *)
Definition block (len : nat) (data : list byte) (i : nat) : list byte :=
  firstn len (skipn (i * len) data).

(** Byte [c] of block [i]. *)
Definition at_ (len : nat) (data : list byte) (i c : nat) : N :=
  to_N (nth c (block len data i) x00).

(** [enc] is the encoding of the [n] blocks in [data]: the blocks themselves,
    then [k] parity blocks; block [j] of these weighs data block [i], counted
    from one, with [i ^ j]. *)
Definition encoding (len n k : nat) (data enc : list byte) : Prop :=
  length enc = ((n + k) * len)%nat /\
  (forall i, (i < n)%nat -> block len enc i = block len data i) /\
  (forall j c, (j < k)%nat -> (c < len)%nat ->
   at_ len enc (n + j) c
   = xor_sum n (fun i => times (N.of_nat (S i) ^ N.of_nat j mod 256) (at_ len data i c))).

(** [v] is what arrives of the blocks of [enc]. *)
Definition received (len total : nat) (enc : list byte) (v : list (option (list byte))) : Prop :=
  length v = total /\
  forall i b, nth_error v i = Some (Some b) -> b = block len enc i.

Definition present (o : option (list byte)) : bool :=
  match o with Some _ => true | None => false end.

(** How many blocks arrived. *)
Definition survivors (v : list (option (list byte))) : nat :=
  length (filter present v).

(** The numbers of the blocks that arrived. *)
Definition arrived (v : list (option (list byte))) : list nat :=
  filter (fun i => present (nth i v None)) (seq 0 (length v)).

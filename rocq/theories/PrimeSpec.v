(** What a user of the prime generator relies on. *)
Require Import List NArith ZArith Znumtheory.
Import ListNotations.
Local Open Scope N_scope.

(** [prime] is the standard library's primality of integers. *)
Definition is_prime (p : N) : Prop := prime (Z.of_N p).

(** A base that does not betray [p] to the Miller-Rabin test: writing p - 1 as
    2^s * d with d odd, either a^d is 1 modulo p, or some a^(2^r * d) with r < s
    is -1 modulo p. *)
Definition strong_liar (p a : N) : Prop :=
  exists s d, p - 1 = 2 ^ s * d /\ N.odd d = true /\
    (a ^ d mod p = 1 \/ exists r, r < s /\ a ^ (2 ^ r * d) mod p = p - 1).

(** The bases that a list of draws gives for the argument [n] and the candidate
    [p]: rand() + n reduced in 32 bits and modulo p, zeros passed over. *)
Definition bases (n p : N) (draws : list N) : list N :=
  filter (fun r => negb (r =? 0)) (map (fun d => ((d + n) mod 2 ^ 32) mod p) draws).

(** How many bases a candidate has to survive. *)
Definition tests_of (p : N) : N := if p <=? 4 then 2 else (p - 1) / 4 + 1.

(** The largest value the generator gives. *)
Definition largest : N := 1073741827.

(** An infinite source of draws that never settles on values reducing to zero. *)
Definition keeps_drawing (src : nat -> N) : Prop :=
  forall n p i, n < 2 ^ 31 -> 1 < p < 2 ^ 31 ->
  exists j, (i <= j)%nat /\ ((src j + n) mod 2 ^ 32) mod p <> 0.

(** The first [k] draws of a source. *)
Definition first_draws (src : nat -> N) (k : nat) : list N := map src (seq 0 k).

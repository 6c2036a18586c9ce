(** Theorems about the prime generator (property C14). *)
Require Import List Arith NArith ZArith Znumtheory Lia Bool.
Require Import ZifyBool ZifyNat ZifyN.
Import ListNotations.
Require Import Verif.Base Verif.NumProofs Verif.PrimeModel Verif.PrimeSpec Verif.PrimeProofs.
Local Open Scope N_scope.

(** C14: whatever rand() gives, the value returned is 2 or odd, is at most
    1073741827, and for an argument up to that bound it is not below the argument
    and no prime from the argument on is passed over. *)
Theorem prime_generate_skips_no_prime n draws p :
  prime_generate n draws = Some p ->
  (p = 2 \/ N.odd p = true) /\ p <= largest /\
  (n <= largest -> n <= p /\ forall q, is_prime q -> n <= q -> p <= q).
Proof. intros H. destruct (generate_spec _ _ _ H) as (A & B & C & _). auto. Qed.
Print Assumptions prime_generate_skips_no_prime.

(** C14: it returns, on every source of draws that does not go on for ever giving
    values that reduce to zero. *)
Theorem prime_generate_terminates src n :
  keeps_drawing src ->
  exists k p, forall k', (k <= k')%nat -> prime_generate n (first_draws src k') = Some p.
Proof. exact (generate_terminates src n). Qed.
Print Assumptions prime_generate_terminates.

(** C14: a composite number is returned only when every one of the bases drawn for
    it, about a quarter of the number of them, is a strong liar for it. *)
Theorem prime_generate_composite_needs_liars n draws p :
  prime_generate n draws = Some p ->
  is_prime p \/
  exists before used after, draws = before ++ used ++ after /\
    length (bases n p used) = N.to_nat (tests_of p) /\
    Forall (strong_liar p) (bases n p used).
Proof.
  intros H. destruct (generate_spec _ _ _ H) as (_ & _ & _ & D). rewrite rounds_tests in D. exact D.
Qed.
Print Assumptions prime_generate_composite_needs_liars.

(** C14: the test itself is exact: a base is reported as a witness exactly when it
    is not a strong liar, and no base is a witness against a prime. *)
Theorem witness_is_miller_rabin a p :
  2 < p < 2 ^ 32 -> N.odd p = true -> a < 2 ^ 32 ->
  exists w, witness a p = Some w /\ (w = false <-> strong_liar p a) /\
    (is_prime p -> 0 < a < p -> w = false).
Proof.
  intros P O A. destruct (witness_spec a p P O A) as (w & W & L). exists w.
  split; [exact W|]. split; [exact L|]. intros Q B. apply L. apply prime_all_liars; auto.
  clear - P; lia.
Qed.
Print Assumptions witness_is_miller_rabin.

(** The result is not always prime: the bases are not required to differ, and the
    generator is seeded with the clock before each of them, so the same base can
    come every time.  Base 1 three times makes it return 9. *)
Theorem prime_generate_gives_primes_refuted :
  exists n draws p, prime_generate n draws = Some p /\ ~ is_prime p.
Proof.
  exists 9, [1; 1; 1], 9. split; [vm_compute; reflexivity|].
  intros P. assert (D : (3 | Z.of_N 9)%Z) by (exists 3%Z; reflexivity).
  destruct (prime_divisors _ P _ D) as [X|[X|[X|X]]]; discriminate.
Qed.
Print Assumptions prime_generate_gives_primes_refuted.

(** Above the ceiling the value returned is below the argument. *)
Theorem prime_generate_not_below_refuted :
  exists n draws p, n < 2 ^ 32 /\ prime_generate n draws = Some p /\ p < n.
Proof. exists 4294967295, [], 1073741827. repeat split; reflexivity. Qed.
Print Assumptions prime_generate_not_below_refuted.

(** A run: from 24, the candidates 25 and 27 are rejected and 29 accepted after
    eight bases. *)
Example prime_generate_ex :
  prime_generate 24 [0; 3; 0; 8; 3; 4; 5; 6; 7; 8; 9; 10; 11] = Some 29.
Proof. vm_compute. reflexivity. Qed.

(** A source that meets [keeps_drawing]: 0 and 1 in turn. *)
Example keeps_drawing_ex : keeps_drawing (fun i => N.of_nat (i mod 2)).
Proof.
  intros n p i Hn Hp.
  assert (Z : exists j, (i <= j)%nat /\ (j mod 2 = 0)%nat).
  { exists (2 * i)%nat. split; [lia|]. rewrite Nat.mul_comm. apply Nat.mod_mul. lia. }
  destruct Z as (j & J & E).
  assert (E' : (S j mod 2 = 1)%nat) by (clear - E; lia).
  destruct (N.eq_dec (((N.of_nat (j mod 2) + n) mod 2 ^ 32) mod p) 0) as [Q|Q].
  - exists (S j). split; [lia|]. rewrite E'. rewrite E in Q. change (N.of_nat 0) with 0 in Q.
    change (N.of_nat 1) with 1. rewrite N.add_0_l in Q.
    rewrite (N.mod_small n) in Q by (clear - Hn; lia).
    rewrite (N.mod_small (1 + n)) by (clear - Hn; lia).
    rewrite <- N.add_mod_idemp_r, Q, N.add_0_r by (clear - Hp; lia).
    rewrite N.mod_small by (clear - Hp; lia). discriminate.
  - exists j. auto.
Qed.

(** * Prime search and RSA key generation: the properties *)
Require Import List Arith NArith ZArith Znumtheory Lia Bool.
Require Import Verif.Base Verif.BnModel Verif.BnSpec Verif.BnTextModel Verif.BnModModel Verif.BnProofs Verif.BnPrimeModel Verif.BnPrimeSpec Verif.BnPrimeProofs
  Verif.RsaModel Verif.RsaSpec Verif.RsaProofs Verif.RsaBlockProofs Verif.RsaKeyProofs Verif.RsaShortProofs Verif.RsaExample.
Import ListNotations.
Local Open Scope N_scope.

(** The test of one base decides exactly whether the candidate is a strong probable prime to that base. *)
Theorem prime_witness_exact :
  forall p b, wf p -> wf b -> (3 <= value p)%Z -> (value p mod 2 = 1)%Z -> fits (mag p * mag p) -> (0 <= value b < value p)%Z ->
    exists w, witness b p = Some w /\ (w = false <-> strong_probable_prime (value p) (value b)).
Proof. exact witness_ok. Qed.
Print Assumptions prime_witness_exact.

(** A prime passes the test for every base, so no prime is ever thrown away. *)
Theorem prime_always_passes :
  forall p b, wf p -> wf b -> prime (value p) -> (3 <= value p)%Z -> fits (mag p * mag p) -> (0 < value b < value p)%Z -> witness b p = Some false.
Proof.
  intros p b Wp Wb P L F B. assert (O : (value p mod 2 = 1)%Z).
  { pose proof (Z.mod_pos_bound (value p) 2 ltac:(reflexivity)) as M. assert (H : (value p mod 2 <> 0)%Z); [|lia].
    intros H. apply Z.mod_divide in H; [|discriminate]. apply (prime_divisors _ P) in H. lia. }
  destruct (witness_ok p b Wp Wb L O F ltac:(lia)) as (w & E & H). rewrite E. f_equal. apply H. apply prime_passes; [exact P|exact O|exact B].
Qed.
Print Assumptions prime_always_passes.

(** The search is the one of the textbook, over a generator of odd numbers that is the same for every call: it returns an odd number of exactly the width
    asked for that passed the test for the number of bases that [rounds] gives, and the candidates it threw away are composite.
    The full property, that the number returned is a prime, no test of this kind gives. *)
Theorem prime_search_partial :
  exists gen : N -> list N -> option (N * list N),
    (forall w ds v r, 2 <= w -> draws ds -> gen w ds = Some (v, r) -> odd_of_width w v /\ draws r) /\
    forall width ds p ds', draws ds -> bn_prime width ds = Some (Some (p, ds')) ->
      3 <= width <= 4112 /\ exists v rejected, holds p v /\ odd_of_width width v /\ search gen width ds rejected v ds' /\
        Forall (fun c => ~ prime (Z.of_N c)) rejected.
Proof.
  exists gen. split; [exact gen_ok|]. intros width ds p ds' D E.
  destruct (bn_prime_search width ds p ds' D E) as (W & Wp & Np & O & D' & rejected & S). split; [exact W|].
  exists (mag p), rejected. split; [split; [exact Wp|apply pos_value; exact Np]|]. split; [exact O|]. split; [exact S|].
  apply (search_rejects gen width ds rejected (mag p) ds' gen_ok); [apply W|exact S|exact D].
Qed.
Print Assumptions prime_search_partial.

(** Every base of the search is at least two and below the candidate. *)
Theorem prime_search_bases :
  forall (gen : N -> list N -> option (N * list N)) width ds b r,
    (forall w ds v r, 2 <= w -> draws ds -> gen w ds = Some (v, r) -> odd_of_width w v /\ draws r) ->
    1 <= width -> sample gen width ds b r -> draws ds -> 2 <= b < 2 ^ (width - 1) /\ draws r.
Proof. exact sample_range. Qed.
Print Assumptions prime_search_bases.

(** Widths the search refuses. *)
Theorem prime_search_refuses : forall width ds, width < 3 \/ 4112 < width -> bn_prime width ds = Some None.
Proof.
  intros width ds H. unfold bn_prime. change (N.shiftr BITS 1) with 4112. destruct H as [H|H].
  - rewrite (proj2 (N.ltb_lt width 3) H), orb_true_r. reflexivity.
  - rewrite (proj2 (N.ltb_lt 4112 width) H). reflexivity.
Qed.
Print Assumptions prime_search_refuses.

(** The generator has 31 bits for each limb of 32: bit 31 of every limb below the last is clear in every number the
    search returns, so not every prime of the width can be found. *)
Theorem prime_search_covers_refuted :
  forall width ds p ds' i, draws ds -> bn_prime width ds = Some (Some (p, ds')) -> 32 * i + 32 < width -> N.testbit (mag p) (32 * i + 31) = false.
Proof.
  intros width ds p ds' i D E. destruct (bn_prime_search width ds p ds' D E) as ((W3 & W4) & _). unfold bn_prime in E.
  destruct (_ || _); [discriminate|]. destruct (prime_loop (length ds) width ds) as [[p' r]|] eqn:R; [|discriminate]. cbn [obind] in E. injection E as -> ->.
  apply (prime_loop_gaps _ _ _ _ _ _ W3 W4 D R).
Qed.
Print Assumptions prime_search_covers_refuted.

(** A generated pair: the modulus is the product of two numbers that came out of the search, the exponents are inverse, and if
    the two numbers are prime it is a key pair in the sense of the specification. *)
Theorem rsa_generate_partial :
  exists gen : N -> list N -> option (N * list N),
    (forall w ds v r, 2 <= w -> draws ds -> gen w ds = Some (v, r) -> odd_of_width w v /\ draws r) /\
    forall bits ds pub pri ds', bits <= 4096 -> draws ds -> key_generate bits ds = Some (Some (pub, pri, ds')) ->
      88 < bits /\ exists p q n d,
        (odd_of_width (bits / 2 + 1) p /\ exists ds rejected r, draws ds /\ search gen (bits / 2 + 1) ds rejected p r) /\
        (odd_of_width (bits / 2) q /\ exists ds rejected r, draws ds /\ search gen (bits / 2) ds rejected q r) /\
        n = p * q /\ (holds (k_n pub) n /\ holds (k_p pub) p /\ holds (k_q pub) q) /\ 2 ^ (bits - 1) <= n /\ n < 2 ^ (bits + 1) /\ (bits <= 4095 -> n < 2 ^ 4096) /\
        (65537 * d) mod ((p - 1) * (q - 1)) = 1 /\ d <= (p - 1) * (q - 1) /\
        (prime (Z.of_N p) -> prime (Z.of_N q) -> n < 2 ^ 4096 -> keys pub pri n 65537 d p q).
Proof. exists gen. split; [exact gen_ok|]. exact key_generate_ok. Qed.
Print Assumptions rsa_generate_partial.

(** What is common to the next two. *)
Lemma generated bits ds pub pri ds' p q n : bits mod 32 = 0 -> bits <= 4096 -> draws ds -> key_generate bits ds = Some (Some (pub, pri, ds')) ->
  holds (k_p pub) p -> holds (k_q pub) q -> holds (k_n pub) n -> prime (Z.of_N p) -> prime (Z.of_N q) -> n < 2 ^ 4096 ->
  exists l d, bits = 32 * l /\ 1 <= l /\ 2 ^ (32 * l - 1) <= n /\ n < 2 ^ (32 * l + 1) /\ keys pub pri n 65537 d p q.
Proof.
  intros M32 Hb D E [_ Vp] [_ Vq] [_ Vn] Pp Pq Ln.
  destruct (key_generate_ok bits ds pub pri ds' Hb D E) as (L88 & p' & q' & n' & d & _ & _ & _ & (Hn' & Hp' & Hq') & Lo & Hi & _ & _ & _ & K).
  assert (p' = p) by (apply N2Z.inj; rewrite <- (proj2 Hp'); exact Vp). assert (q' = q) by (apply N2Z.inj; rewrite <- (proj2 Hq'); exact Vq).
  assert (n' = n) by (apply N2Z.inj; rewrite <- (proj2 Hn'); exact Vn). subst p' q' n'.
  assert (Eb : bits = 32 * (bits / 32)) by (rewrite (N.div_mod' bits 32) at 1; rewrite M32; apply N.add_0_r).
  exists (bits / 32), d. rewrite <- Eb. split; [reflexivity|]. split; [clear - Eb L88; lia|]. split; [exact Lo|]. split; [exact Hi|]. apply K; assumption.
Qed.

(** Asked for a multiple of 32 bits, a pair of primes whose product has no more bits than that encrypts and decrypts
    every text that fits.  The full property has no condition on the product. *)
Theorem rsa_generated_round_trip_partial :
  forall bits ds pub pri ds' p q n, bits mod 32 = 0 -> bits <= 4096 -> draws ds -> key_generate bits ds = Some (Some (pub, pri, ds')) ->
    holds (k_p pub) p -> holds (k_q pub) q -> holds (k_n pub) n -> prime (Z.of_N p) -> prime (Z.of_N q) -> n < 2 ^ bits ->
    N.of_nat (nlen pub) = bits / 8 /\
    forall m rs behind, bytes m -> m <> [] -> (length m + 11 <= nlen pub)%nat -> (nlen pub - length m - 3 <= nonzero_draws rs)%nat ->
      exists c rs' c', public_encrypt pub rs m = Some (Some c, rs') /\ private_decrypt pri behind c = Some (c', Some m).
Proof.
  intros bits ds pub pri ds' p q n M32 Hb D E Hp Hq Hn Pp Pq L.
  assert (Ln : n < 2 ^ 4096) by (eapply N.lt_le_trans; [exact L|]; apply N.pow_le_mono_r; [discriminate|exact Hb]).
  destruct (generated _ _ _ _ _ _ _ _ M32 Hb D E Hp Hq Hn Pp Pq Ln) as (l & d & -> & L1 & Lo & _ & K).
  destruct (keys_good _ _ _ _ _ _ _ K) as [G _]. split.
  - rewrite (nlen_full _ _ _ _ _ l G Lo L L1). replace (32 * l) with (4 * l * 8) by (clear; lia). rewrite N.div_mul by discriminate. reflexivity.
  - intros m rs behind B M Lm R.
    destruct (public_round_trip _ _ _ _ _ _ _ m rs behind K (full_room _ _ _ _ _ l G Lo L L1) B M Lm R) as (c & rs' & c' & E1 & _ & _ & E2).
    exists c, rs', c'. split; assumption.
Qed.
Print Assumptions rsa_generated_round_trip_partial.

(** The product may have one bit more, and then no text can be decrypted again. *)
Theorem rsa_generated_refuted :
  (forall bits ds pub pri ds' p q n, bits mod 32 = 0 -> bits <= 4064 -> draws ds -> key_generate bits ds = Some (Some (pub, pri, ds')) ->
    holds (k_p pub) p -> holds (k_q pub) q -> holds (k_n pub) n -> prime (Z.of_N p) -> prime (Z.of_N q) -> 2 ^ bits <= n ->
    forall m rs behind c rs', bytes m -> m <> [] -> public_encrypt pub rs m = Some (Some c, rs') ->
      exists c', private_decrypt pri behind c = Some (c', None)) /\
  exists ds pub pri ds' p q n, draws ds /\ key_generate 96 ds = Some (Some (pub, pri, ds')) /\
    holds (k_p pub) p /\ holds (k_q pub) q /\ holds (k_n pub) n /\ prime (Z.of_N p) /\ prime (Z.of_N q) /\ 2 ^ 96 <= n.
Proof.
  split.
  - intros bits ds pub pri ds' p q n M32 Hb D E Hp Hq Hn Pp Pq L.
    assert (Ln : n < 2 ^ 4096).
    { destruct (key_generate_ok bits ds pub pri ds' ltac:(clear - Hb; lia) D E) as (_ & p' & q' & n' & d & _ & _ & _ & (Hn' & _) & _ & _ & Hi & _).
      assert (n' = n) by (apply N2Z.inj; rewrite <- (proj2 Hn'); exact (proj2 Hn)). subst n'. apply Hi. clear - Hb. lia. }
    destruct (generated _ _ _ _ _ _ _ _ M32 ltac:(clear - Hb; lia) D E Hp Hq Hn Pp Pq Ln) as (l & d & -> & L1 & _ & Hi & K).
    destruct (keys_good _ _ _ _ _ _ _ K) as [G _]. intros m rs behind c rs' B M E1.
    apply (short_modulus _ _ _ _ _ _ _ m rs behind c rs' K (over_short _ _ _ _ _ l G L Hi) B M E1).
  - destruct short_keys as [Pr [Hn _ Hp Hq _ _ _] _ _ _ _ _ _ _]. exists short_draws, short_pub, short_pri, [], short_p, short_q, short_n.
    split; [repeat constructor|]. split; [exact short_generated|]. split; [apply Hp; reflexivity|]. split; [apply Hq; reflexivity|]. split; [exact Hn|].
    split; [apply Pr|]. split; [apply Pr|]. apply N.leb_le. vm_compute. reflexivity.
Qed.
Print Assumptions rsa_generated_refuted.

(** Key lengths that are refused; 8224 passes the first check and then fails for want of a prime that long. *)
Theorem rsa_generate_refuses :
  forall bits ds, bits <= 88 \/ 8223 < bits -> ds <> [] -> key_generate bits ds = Some None.
Proof.
  intros bits ds H N. unfold key_generate. change BITS with 8224. destruct (N.leb_spec bits 88) as [|L]; [reflexivity|]. cbn [orb].
  destruct (N.ltb_spec 8224 bits) as [|U]; [reflexivity|]. destruct ds as [|x ds]; [contradiction|]. cbn [length generate_loop]. unfold generate_once.
  rewrite prime_search_refuses; [reflexivity|]. right. rewrite N.shiftr_div_pow2. change (2 ^ 1) with 2.
  assert (bits = 8224) as -> by (clear - H L U; lia). reflexivity.
Qed.
Print Assumptions rsa_generate_refuses.

(** ** Cases that meet the hypotheses *)

(** The prime 7 passes for the base 3; 9 does not, and is a strong probable prime to the base 8. *)
Example prime_witness_ex :
  witness (number 3) (number 7) = Some false /\ witness (number 3) (number 9) = Some true /\ witness (number 8) (number 9) = Some false /\
  prime (value (number 7)) /\ wf (number 7) /\ wf (number 3) /\ fits (mag (number 7) * mag (number 7)).
Proof.
  split; [vm_compute; reflexivity|]. split; [vm_compute; reflexivity|]. split; [vm_compute; reflexivity|].
  split; [change (prime (Z.of_N 7)); apply (NumProofs.trial_division 7 0); vm_compute; reflexivity|].
  split; [apply wfb_ok; vm_compute; reflexivity|]. split; [apply wfb_ok; vm_compute; reflexivity|]. unfold fits. apply N.ltb_lt. vm_compute. reflexivity.
Qed.

(** A search that throws 9 away, for which 3 is a witness, and finds 13. *)
Example prime_search_ex :
  draws [0; 2; 0; 4; 2; 0; 2; 0; 2; 0; 2; 0] /\
  exists p, bn_prime 4 [0; 2; 0; 4; 2; 0; 2; 0; 2; 0; 2; 0] = Some (Some (p, [])) /\ mag p = 13.
Proof. split; [repeat constructor|]. exists (number 13). split; vm_compute; reflexivity. Qed.

(** A pair generated from 96 bits that has 96 bits. *)
Example rsa_generate_ex :
  draws small_draws /\ key_generate 96 small_draws = Some (Some (small_pub, small_pri, [])) /\ prime (Z.of_N small_p) /\ prime (Z.of_N small_q) /\
  holds (k_p small_pub) small_p /\ holds (k_q small_pub) small_q /\ holds (k_n small_pub) small_n /\ small_n < 2 ^ 96 /\ nlen small_pub = 12%nat.
Proof.
  destruct small_keys as [Pr [Hn _ Hp Hq _ _ _] _ _ _ _ _ _ _]. split; [repeat constructor|]. split; [exact small_generated|]. split; [apply Pr|]. split; [apply Pr|].
  split; [apply Hp; reflexivity|]. split; [apply Hq; reflexivity|]. split; [exact Hn|]. split; [apply N.ltb_lt; vm_compute; reflexivity|reflexivity].
Qed.

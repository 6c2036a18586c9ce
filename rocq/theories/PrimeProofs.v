(** Proofs about the prime generator. *)
Require Import List Arith NArith ZArith Znumtheory Lia Bool.
Require Import ZifyBool ZifyNat ZifyN.
Import ListNotations.
Require Import Verif.Base Verif.NumProofs Verif.PrimeModel Verif.PrimeSpec.
Local Open Scope N_scope.

(** * Drawing a base *)

Lemma rand_scope_some low high draws r rest :
  rand_scope low high draws = Some (r, rest) -> 0 < high ->
  0 < r < high /\
  exists used, draws = used ++ rest /\ bases low high used = [r] /\ used <> [].
Proof.
  intros H P. revert H. induction draws as [|d t IH]; intros H; [discriminate|].
  cbn [rand_scope] in H. unfold bases in *.
  destruct (N.eqb_spec (((d + low) mod 2 ^ 32) mod high) 0) as [E|E].
  - destruct (IH H) as (A & u & -> & B & C). split; auto.
    exists (d :: u). split; [reflexivity|]. split; [|discriminate].
    cbn [map filter]. rewrite E. exact B.
  - injection H as <- <-. split.
    + pose proof (N.mod_lt ((d + low) mod 2 ^ 32) high ltac:(clear - P; lia)) as Q.
      split; [apply N.neq_0_lt_0; exact E|exact Q].
    + exists [d]. split; [reflexivity|]. split; [|discriminate].
      cbn [map filter]. apply N.eqb_neq in E. rewrite E. reflexivity.
Qed.

Lemma rand_scope_app low high draws more r rest :
  rand_scope low high draws = Some (r, rest) ->
  rand_scope low high (draws ++ more) = Some (r, rest ++ more).
Proof.
  induction draws as [|d t IH]; intros H; [discriminate|].
  cbn [app rand_scope] in *. destruct (_ =? 0); [auto|].
  injection H as <- <-. reflexivity.
Qed.

Lemma rand_scope_supply src low high j : forall k i,
  (j = i + k)%nat -> ((src j + low) mod 2 ^ 32) mod high <> 0 ->
  exists m r, (0 < m)%nat /\
  forall more, rand_scope low high (map src (seq i m) ++ more) = Some (r, more).
Proof.
  induction k as [|k IH]; intros i E H.
  - exists 1%nat. eexists. split; [lia|]. intros more. cbn [seq map app rand_scope].
    replace j with i in H by lia. apply N.eqb_neq in H. rewrite H. reflexivity.
  - destruct (N.eqb_spec (((src i + low) mod 2 ^ 32) mod high) 0) as [Z|Z].
    + destruct (IH (S i) ltac:(lia) H) as (m & r & M & A). exists (S m), r. split; [lia|].
      intros more. cbn [seq map app rand_scope]. rewrite Z. apply A.
    + exists 1%nat. eexists. split; [lia|]. intros more. cbn [seq map app rand_scope].
      apply N.eqb_neq in Z. rewrite Z. reflexivity.
Qed.

(** * The witness *)

Lemma separate_spec fuel : forall num pwr, 0 < num < 2 ^ N.of_nat fuel ->
  exists p o, separate fuel num pwr = Some (pwr + p, o) /\ num = 2 ^ p * o /\
    N.odd o = true /\ p < N.of_nat fuel.
Proof.
  induction fuel as [|f IH]; intros num pwr B.
  - change (2 ^ N.of_nat 0) with 1 in B. lia.
  - cbn [separate]. destruct (N.eqb_spec (num mod 2) 0) as [E|E].
    + rewrite Nat2N.inj_succ, N.pow_succ_r' in B.
      change (N.shiftr num 1) with (N.shiftr num 1). rewrite N.shiftr_div_pow2. change (2 ^ 1) with 2.
      destruct (IH (num / 2) (pwr + 1)) as (p & o & S & M & O & L); [lia|].
      exists (p + 1), o. rewrite S. split; [f_equal; f_equal; lia|].
      split; [|split; [exact O|lia]].
      rewrite N.pow_add_r. change (2 ^ 1) with 2. lia.
    + exists 0, num. split; [f_equal; f_equal; lia|]. split; [lia|]. split; [|lia].
      apply N.odd_spec. exists (num / 2). lia.
Qed.

Lemma mul_small x y : x < 2 ^ 32 -> y < 2 ^ 32 -> x * y mod 2 ^ 64 = x * y.
Proof.
  intros A B. apply N.mod_small. change (2 ^ 64) with (2 ^ 32 * 2 ^ 32).
  apply N.mul_lt_mono; auto.
Qed.

Lemma sq_small x n : x < n -> n <= 2 ^ 32 -> x * x mod 2 ^ 64 = x * x.
Proof. intros A B. apply mul_small; lia. Qed.

Lemma mod_exp_loop_spec base pwr n : 1 < n <= 2 ^ 32 -> base < 2 ^ 32 -> forall i d, d < n ->
  mod_exp_loop i base pwr n d = (d ^ (2 ^ N.of_nat i) * base ^ (pwr mod 2 ^ N.of_nat i)) mod n.
Proof.
  intros Hn Hb. induction i as [|i IH]; intros d D.
  - cbn [mod_exp_loop]. change (2 ^ N.of_nat 0) with 1. rewrite N.mod_1_r, N.pow_1_r, N.pow_0_r, N.mul_1_r.
    symmetry; apply N.mod_small; auto.
  - cbn [mod_exp_loop]. rewrite (sq_small d n) by lia.
    set (e := d * d mod n). assert (E : e < n) by (apply N.mod_lt; lia).
    assert (Sq : d ^ (2 ^ N.of_nat (S i)) mod n = e ^ (2 ^ N.of_nat i) mod n).
    { rewrite Nat2N.inj_succ, N.pow_succ_r', N.pow_mul_r, N.pow_2_r.
      unfold e. clear - Hn. generalize (d * d); intros q.
      generalize (2 ^ N.of_nat i). intros k. induction k using N.peano_ind; [reflexivity|].
      rewrite !N.pow_succ_r'. rewrite <- N.mul_mod_idemp_r, IHk, N.mul_mod_idemp_r by lia.
      rewrite N.mul_mod_idemp_l by lia. reflexivity. }
    assert (Bits : pwr mod 2 ^ N.of_nat (S i) = pwr mod 2 ^ N.of_nat i + 2 ^ N.of_nat i * N.b2n (N.testbit pwr (N.of_nat i))).
    { rewrite Nat2N.inj_succ, N.pow_succ_r'. rewrite N.testbit_spec' by lia.
      rewrite (N.mul_comm 2). apply N.mod_mul_r; [apply N.pow_nonzero; lia|lia]. }
    rewrite Bits. rewrite <- (N.mul_mod_idemp_l (d ^ _)), Sq, N.mul_mod_idemp_l by lia.
    destruct (N.testbit pwr (N.of_nat i)); cbn [N.b2n].
    + rewrite (mul_small e base (N.lt_le_trans _ _ _ E (proj2 Hn)) Hb).
      rewrite IH by (apply N.mod_lt; lia).
      rewrite N.mul_1_r, N.pow_add_r.
      assert (Q : (e * base mod n) ^ (2 ^ N.of_nat i) mod n = (e * base) ^ (2 ^ N.of_nat i) mod n).
      { clear - Hn. generalize (e * base); intros q. generalize (2 ^ N.of_nat i). intros k.
        induction k using N.peano_ind; [reflexivity|].
        rewrite !N.pow_succ_r'. rewrite <- N.mul_mod_idemp_r, IHk, N.mul_mod_idemp_r by lia.
        rewrite N.mul_mod_idemp_l by lia. reflexivity. }
      rewrite <- (N.mul_mod_idemp_l ((e * base mod n) ^ _)), Q, N.mul_mod_idemp_l by lia.
      rewrite N.pow_mul_l. f_equal. lia.
    + rewrite N.mul_0_r, N.add_0_r. apply IH; auto.
Qed.

Lemma mod_exp_spec base pwr n : 1 < n <= 2 ^ 32 -> base < 2 ^ 32 -> pwr < 2 ^ 32 ->
  modular_exponentiation base pwr n = base ^ pwr mod n.
Proof.
  intros A B C. unfold modular_exponentiation. rewrite mod_exp_loop_spec by lia.
  change (N.of_nat 32) with 32. rewrite (N.mod_small pwr) by auto.
  rewrite N.pow_1_l, N.mul_1_l. reflexivity.
Qed.

Lemma pow_double_mod a e n : 1 < n -> (a ^ e mod n) * (a ^ e mod n) mod n = a ^ (2 * e) mod n.
Proof.
  intros H. rewrite <- N.mul_mod by lia. rewrite <- N.pow_add_r. f_equal. f_equal. lia.
Qed.

(** What the loop of squarings sees: the powers [a ^ (2^j * e)] for [j < i]. *)
Lemma square_loop_spec p a : 2 < p <= 2 ^ 32 -> forall i e nx,
  match square_loop i p (a ^ e mod p) nx with
  | None => exists j, j < N.of_nat i /\ a ^ (2 ^ (j + 1) * e) mod p = 1 /\
              a ^ (2 ^ j * e) mod p <> 1 /\ a ^ (2 ^ j * e) mod p <> p - 1
  | Some y => (i = 0%nat -> y = nx) /\ (i <> 0%nat -> y = a ^ (2 ^ N.of_nat i * e) mod p) /\
              forall j, j < N.of_nat i -> a ^ (2 ^ (j + 1) * e) mod p = 1 ->
                a ^ (2 ^ j * e) mod p = 1 \/ a ^ (2 ^ j * e) mod p = p - 1
  end.
Proof.
  intros P. induction i as [|i IH]; intros e nx.
  - cbn [square_loop]. split; [auto|]. split; [congruence|]. intros j J. exfalso. clear - J. lia.
  - cbn [square_loop].
    rewrite (sq_small (a ^ e mod p) p) by (try apply N.mod_lt; lia).
    rewrite pow_double_mod by lia.
    destruct (_ && _ && _) eqn:T.
    + apply andb_true_iff in T. destruct T as [T T3]. apply andb_true_iff in T. destruct T as [T1 T2].
      apply N.eqb_eq in T1. apply negb_true_iff, N.eqb_neq in T2. apply negb_true_iff, N.eqb_neq in T3.
      exists 0. change (2 ^ (0 + 1)) with 2. change (2 ^ 0) with 1. rewrite N.mul_1_l.
      split; [lia|]. auto.
    + specialize (IH (2 * e) (a ^ (2 * e) mod p)).
      assert (X : forall j, 2 ^ j * (2 * e) = 2 ^ (j + 1) * e).
      { intros j. rewrite N.add_1_r, N.pow_succ_r'. ring. }
      destruct (square_loop i p (a ^ (2 * e) mod p) (a ^ (2 * e) mod p)) as [y|].
      * destruct IH as (I1 & I2 & I3). split; [congruence|]. split.
        { intros _. destruct i as [|i'].
          - rewrite I1 by auto. change (2 ^ N.of_nat 1) with 2. reflexivity.
          - rewrite I2 by congruence. rewrite X. rewrite (Nat2N.inj_succ (S i')), N.add_1_r. reflexivity. }
        { intros j J H. destruct (N.eq_dec j 0) as [->|Nz].
          - change (2 ^ (0 + 1)) with 2 in H. change (2 ^ 0) with 1. rewrite N.mul_1_l.
            rewrite H, N.eqb_refl in T. cbn [andb] in T.
            destruct (N.eqb_spec (a ^ e mod p) 1); [auto|].
            destruct (N.eqb_spec (a ^ e mod p) (p - 1)); [auto|]. discriminate.
          - specialize (I3 (j - 1)). rewrite !X in I3.
            replace (j - 1 + 1) with j in I3 by (clear - Nz; lia). apply I3; [clear - J Nz; lia|exact H]. }
      * destruct IH as (j & J & A & B & C). rewrite !X in *.
        exists (j + 1). split; [clear - J; lia|]. auto.
Qed.

Lemma two_pow_split s d s' d' : 2 ^ s * d = 2 ^ s' * d' -> N.odd d = true -> N.odd d' = true ->
  s = s' /\ d = d'.
Proof.
  assert (G : forall s d s' d', s <= s' -> 2 ^ s * d = 2 ^ s' * d' -> N.odd d = true -> s = s' /\ d = d').
  { clear. intros s d s' d' L E O.
    assert (Q : d = 2 ^ (s' - s) * d').
    { replace s' with (s + (s' - s)) in E by lia. rewrite N.pow_add_r, <- N.mul_assoc in E.
      apply N.mul_cancel_l in E; auto. apply N.pow_nonzero. lia. }
    destruct (N.eq_dec s s') as [->|Ne].
    - split; auto. rewrite N.sub_diag in Q. change (2 ^ 0) with 1 in Q. lia.
    - exfalso. replace (s' - s) with (N.succ (s' - s - 1)) in Q by lia.
      rewrite N.pow_succ_r', <- N.mul_assoc in Q. rewrite Q, N.odd_mul in O. discriminate. }
  intros E O O'. destruct (N.le_ge_cases s s') as [L|L].
  - apply G; auto.
  - symmetry in E. destruct (G _ _ _ _ L E O') as [-> ->]. auto.
Qed.

Lemma pow_one_up p a e k : 1 < p -> a ^ e mod p = 1 -> a ^ (e * k) mod p = 1.
Proof.
  intros P H. rewrite N.pow_mul_r. induction k using N.peano_ind.
  - rewrite N.pow_0_r. apply N.mod_small; lia.
  - rewrite N.pow_succ_r'. rewrite <- N.mul_mod_idemp_l, H, N.mul_1_l by lia. exact IHk.
Qed.

Lemma pow_pred_sq p a e : 2 < p -> a ^ e mod p = p - 1 -> a ^ (2 * e) mod p = 1.
Proof.
  intros P H. rewrite <- pow_double_mod, H by lia.
  replace ((p - 1) * (p - 1)) with (1 + (p - 2) * p) by nia.
  rewrite N.mod_add by lia. apply N.mod_small; lia.
Qed.

Theorem witness_spec a p : 2 < p < 2 ^ 32 -> N.odd p = true -> a < 2 ^ 32 ->
  exists w, witness a p = Some w /\ (w = false <-> strong_liar p a).
Proof.
  intros P Op Ha. unfold witness.
  destruct (separate_spec 33 (p - 1) 0) as (s & d & S & M & O & L).
  { change (2 ^ N.of_nat 33) with (2 * 2 ^ 32). lia. }
  rewrite S. cbn [obind fst snd]. rewrite N.add_0_l.
  assert (D : d < 2 ^ 32).
  { assert (1 <= 2 ^ s) by (apply N.lt_pred_le, N.neq_0_lt_0, N.pow_nonzero; lia). nia. }
  rewrite mod_exp_spec by lia.
  assert (S0 : s <> 0).
  { intros ->. change (2 ^ 0) with 1 in M. rewrite N.mul_1_l in M. subst d.
    apply N.odd_spec in Op, O. destruct Op as [k K], O as [k' K']. lia. }
  pose proof (square_loop_spec p a ltac:(lia) (N.to_nat s) d 0) as Q.
  rewrite N2Nat.id in Q.
  assert (Ex : forall r, r <= s -> a ^ (2 ^ r * d) mod p = 1 -> forall t, r <= t -> a ^ (2 ^ t * d) mod p = 1).
  { intros r _ H t T. replace (2 ^ t * d) with (2 ^ r * d * 2 ^ (t - r)).
    - apply pow_one_up; auto; lia.
    - replace t with (r + (t - r)) at 2 by (clear - T; lia). rewrite N.pow_add_r. ring. }
  destruct (square_loop _ p _ 0) as [y|].
  - destruct Q as (_ & Q2 & Q3). specialize (Q2 ltac:(lia)).
    exists (negb (y =? 1)). split; [reflexivity|]. rewrite negb_false_iff, N.eqb_eq. split.
    + intros ->. exists s, d. split; [auto|]. split; [auto|].
      assert (G : forall k, k <= s -> a ^ (2 ^ (s - k) * d) mod p = 1 \/ exists r, r < s /\ a ^ (2 ^ r * d) mod p = p - 1).
      { intros k. induction k using N.peano_ind; intros K.
        - left. rewrite N.sub_0_r. auto.
        - destruct (IHk ltac:(clear - K; lia)) as [H|H]; [|auto].
          specialize (Q3 (s - N.succ k)). replace (s - N.succ k + 1) with (s - k) in Q3 by (clear - K; lia).
          destruct (Q3 ltac:(clear - K; lia) H) as [H1|H1]; [auto|]. right. exists (s - N.succ k).
          split; [clear - K; lia|exact H1]. }
      destruct (G s ltac:(lia)) as [H|H]; [left|auto].
      rewrite N.sub_diag in H. change (2 ^ 0) with 1 in H. rewrite N.mul_1_l in H. exact H.
    + intros (s' & d' & M' & O' & C). rewrite M' in M. destruct (two_pow_split _ _ _ _ M O' O) as [-> ->].
      rewrite Q2. destruct C as [C|(r & R & C)].
      * apply (Ex 0); [clear; lia| |clear; lia]. change (2 ^ 0) with 1. rewrite N.mul_1_l. exact C.
      * apply (Ex (r + 1)); [clear - R; lia| |clear - R; lia]. rewrite N.add_1_r, N.pow_succ_r', <- N.mul_assoc.
        apply pow_pred_sq; auto; lia.
  - exists true. split; [reflexivity|]. split; [discriminate|]. intros H. exfalso.
    destruct H as (s' & d' & M' & O' & C). rewrite M' in M. destruct (two_pow_split _ _ _ _ M O' O) as [-> ->].
    destruct Q as (j & J & A & B & D').
    destruct C as [C|(r & R & C)].
    + apply B. apply (Ex 0); [clear; lia| |clear; lia]. change (2 ^ 0) with 1. rewrite N.mul_1_l. exact C.
    + destruct (N.lt_trichotomy j r) as [T|[->|T]].
      * assert (F : a ^ (2 ^ r * d) mod p = 1).
        { apply (Ex (j + 1)); [clear - J; lia|exact A|clear - T; lia]. }
        rewrite F in C. clear - C P. lia.
      * auto.
      * apply B. apply (Ex (r + 1)); [clear - R; lia| |clear - R T; lia]. rewrite N.add_1_r, N.pow_succ_r', <- N.mul_assoc.
        apply pow_pred_sq; auto; lia.
Qed.

(** A prime has no witness. *)
Lemma prime_all_liars p a : 2 < p -> N.odd p = true -> is_prime p -> 0 < a < p -> strong_liar p a.
Proof.
  intros P2 Op P A.
  assert (F : a ^ (p - 1) mod p = 1).
  { apply N2Z.inj. rewrite N2Z.inj_mod, N2Z.inj_pow, N2Z.inj_sub by lia. apply fermat_little; auto. lia. }
  assert (SD : exists s d, p - 1 = 2 ^ s * d /\ N.odd d = true).
  { destruct (separate_spec (N.to_nat p) (p - 1) 0) as (s & d & _ & M & O & _).
    - split; [lia|]. rewrite N2Nat.id. pose proof (N.pow_gt_lin_r 2 p ltac:(lia)). lia.
    - exists s, d. auto. }
  destruct SD as (s & d & M & O). exists s, d. split; [auto|]. split; [auto|].
  rewrite M in F.
  assert (G : forall k, k <= s -> a ^ (2 ^ (s - k) * d) mod p = 1 \/ exists r, r < s /\ a ^ (2 ^ r * d) mod p = p - 1).
  { intros k. induction k using N.peano_ind; intros K.
    - left. rewrite N.sub_0_r. exact F.
    - destruct (IHk ltac:(clear - K; lia)) as [H|H]; [|auto].
      set (x := a ^ (2 ^ (s - N.succ k) * d) mod p).
      assert (X : x * x mod p = 1).
      { unfold x. rewrite pow_double_mod by lia. rewrite N.mul_assoc, <- N.pow_succ_r'.
        replace (N.succ (s - N.succ k)) with (s - k) by (clear - K; lia). exact H. }
      assert (B : x < p) by (apply N.mod_lt; lia).
      destruct (sqrt_of_one (Z.of_N p) (Z.of_N x) P) as [E|E].
      + lia.
      + rewrite <- N2Z.inj_mul, <- N2Z.inj_mod, X. reflexivity.
      + left. fold x. clear - E. lia.
      + right. exists (s - N.succ k). split; [clear - K; lia|]. fold x. clear - E B P2. lia. }
  destruct (G s ltac:(lia)) as [H|H]; [left|auto].
  rewrite N.sub_diag in H. change (2 ^ 0) with 1 in H. rewrite N.mul_1_l in H. exact H.
Qed.

(** * The rounds of one candidate *)

Lemma bases_app n p l1 l2 : bases n p (l1 ++ l2) = bases n p l1 ++ bases n p l2.
Proof. unfold bases. rewrite map_app, filter_app. reflexivity. Qed.

Lemma trials_eq s n prim draws : trials s n prim draws =
  (r <- rand_scope n prim draws ;;
   w <- witness (fst r) prim ;;
   if w then Some (false, snd r)
   else match s with O => Some (true, snd r) | S s' => trials s' n prim (snd r) end).
Proof. destruct s; reflexivity. Qed.

Lemma trials_spec n p : 2 < p < 2 ^ 32 -> N.odd p = true -> forall s draws ok rest,
  trials s n p draws = Some (ok, rest) ->
  exists used, draws = used ++ rest /\ used <> [] /\
    (ok = false -> ~ is_prime p) /\
    (ok = true -> length (bases n p used) = S s /\ Forall (strong_liar p) (bases n p used)).
Proof.
  intros P Op. induction s as [|s IH]; intros draws ok rest H; rewrite trials_eq in H;
  destruct (rand_scope n p draws) as [[a r]|] eqn:R; try discriminate; cbn [obind fst snd] in H;
  apply rand_scope_some in R; try (clear - P; lia); destruct R as (A & u & -> & B & U);
  destruct (witness_spec a p P Op) as (w & W & L); try (clear - P A; lia);
  rewrite W in H; cbn [obind] in H; destruct w.
  - injection H as <- <-. exists u. split; [auto|]. split; [auto|]. split; [|discriminate].
    intros _ Q. apply (prime_all_liars p a) in Q; auto; [|clear - P; lia].
    apply L in Q; discriminate.
  - injection H as <- <-. exists u. split; [auto|]. split; [auto|]. split; [discriminate|].
    intros _. rewrite B. split; [reflexivity|]. constructor; [|constructor]. apply L; reflexivity.
  - injection H as <- <-. exists u. split; [auto|]. split; [auto|]. split; [|discriminate].
    intros _ Q. apply (prime_all_liars p a) in Q; auto; [|clear - P; lia].
    apply L in Q; discriminate.
  - apply IH in H. destruct H as (v & -> & V & F1 & F2). exists (u ++ v).
    split; [apply app_assoc|]. split; [destruct u; [contradiction|discriminate]|].
    split; [exact F1|]. intros K. destruct (F2 K) as [F3 F4]. rewrite bases_app, B.
    split; [cbn [app length]; f_equal; exact F3|]. constructor; [apply L; reflexivity|exact F4].
Qed.

Lemma trials_supply src n p : keeps_drawing src -> n < 2 ^ 31 -> 2 < p < 2 ^ 31 -> N.odd p = true ->
  forall s i, exists m ok, (0 < m)%nat /\
  forall more, trials s n p (map src (seq i m) ++ more) = Some (ok, more).
Proof.
  intros K Hn P Op. induction s as [|s IH]; intros i;
  (destruct (K n p i Hn) as (j & J & Z); [clear - P; lia|]);
  destruct (rand_scope_supply src n p j (j - i) i) as (m & a & M & R); auto; try (clear - J; lia);
  (pose proof (R []) as R0; rewrite app_nil_r in R0; apply rand_scope_some in R0; [|clear - P; lia];
   destruct R0 as (A & _));
  (destruct (witness_spec a p) as (w & W & _); [clear - P; lia|auto|clear - P A; lia|]); destruct w.
  - exists m, false. split; auto. intros more. rewrite trials_eq, R. cbn [obind fst snd]. rewrite W. reflexivity.
  - exists m, true. split; auto. intros more. rewrite trials_eq, R. cbn [obind fst snd]. rewrite W. reflexivity.
  - exists m, false. split; auto. intros more. rewrite trials_eq, R. cbn [obind fst snd]. rewrite W. reflexivity.
  - destruct (IH (i + m)%nat) as (m2 & ok & M2 & T). exists (m + m2)%nat, ok. split; [lia|].
    intros more. rewrite seq_app, map_app, <- app_assoc, trials_eq, R. cbn [obind fst snd]. rewrite W. apply T.
Qed.

(** * The search *)

Notation ceiling := largest (only parsing).

Lemma ceiling_prime : is_prime ceiling.
Proof. exact prime_ceiling. Qed.

Lemma even_not_prime q : N.odd q = false -> is_prime q -> q = 2.
Proof.
  intros O P. assert (D : (2 | Z.of_N q)%Z).
  { rewrite <- N.negb_even in O. apply negb_false_iff, N.even_spec in O. destruct O as [k ->].
    exists (Z.of_N k). lia. }
  destruct (prime_divisors _ P _ D) as [E|[E|[E|E]]]; lia.
Qed.

Lemma odd_step p : N.odd p = true -> N.odd (p + 2) = true.
Proof. intros H. rewrite N.odd_add, H. reflexivity. Qed.

Definition skipped (n p : N) : Prop := forall q, is_prime q -> n <= q -> p <= q.

Lemma skipped_step n p : 2 < n -> skipped n p -> N.odd p = true -> ~ is_prime p -> skipped n (p + 2).
Proof.
  intros H S O Np q Q L. pose proof (S q Q L) as G.
  destruct (N.eq_dec q p) as [->|]; [contradiction|].
  destruct (N.eq_dec q (p + 1)) as [->|]; [|lia].
  assert (p + 1 = 2); [|lia]. apply even_not_prime; auto.
  rewrite N.add_1_r, N.odd_succ, <- N.negb_odd, O. reflexivity.
Qed.

Lemma below_ceiling p : N.odd p = true -> p <= ceiling -> p <> ceiling -> p + 2 <= ceiling.
Proof.
  unfold largest. intros O A B. apply N.odd_spec in O. destruct O as [k ->]. lia.
Qed.

Lemma search_spec n : 2 < n <= ceiling -> forall fuel p draws r,
  n <= p <= ceiling -> N.odd p = true -> skipped n p ->
  search fuel n p draws = Some r ->
  n <= r <= ceiling /\ N.odd r = true /\ skipped n r /\
  exists before used after, draws = before ++ used ++ after /\
    length (bases n r used) = S (N.to_nat (rounds r)) /\ Forall (strong_liar r) (bases n r used).
Proof.
  intros N2. induction fuel as [|f IH]; intros p draws r B O S H; [discriminate|].
  cbn [search] in H. destruct (trials _ n p draws) as [[ok rest]|] eqn:T; [|discriminate].
  cbn [obind fst snd] in H.
  apply trials_spec in T; auto; [|unfold largest in *; clear - B N2; lia].
  destruct T as (u & -> & U & T1 & T2). destruct ok.
  - injection H as <-. split; [auto|]. split; [auto|]. split; [auto|].
    exists [], u, rest. split; [reflexivity|]. auto.
  - specialize (T1 eq_refl).
    assert (L : p + 2 <= ceiling).
    { apply below_ceiling; auto; [clear - B; lia|]. intros ->. apply T1, ceiling_prime. }
    rewrite N.mod_small in H by (unfold largest in L; clear - L; lia).
    apply IH in H; auto.
    + destruct H as (H1 & H2 & H3 & b & v & a & -> & H4). split; [auto|]. split; [auto|]. split; [auto|].
      exists (u ++ b), v, a. rewrite <- app_assoc. auto.
    + clear - B L. lia.
    + apply odd_step; auto.
    + apply skipped_step; auto. clear - N2. lia.
Qed.

Lemma search_supply src n : keeps_drawing src -> 2 < n <= ceiling -> forall g p i,
  ceiling - p < N.of_nat g -> n <= p <= ceiling -> N.odd p = true ->
  exists k r, forall more fuel, (k < fuel)%nat -> search fuel n p (map src (seq i k) ++ more) = Some r.
Proof.
  intros K N2. induction g as [|g IH]; intros p i G B O; [clear - G; lia|].
  destruct (trials_supply src n p K) with (s := N.to_nat (rounds p)) (i := i) as (m & ok & M & T); auto;
    try (unfold largest in *; clear - B N2; lia).
  destruct ok.
  - exists m, p. intros more fuel F. destruct fuel as [|f]; [lia|]. cbn [search]. rewrite T. reflexivity.
  - assert (Np : ~ is_prime p).
    { pose proof (T []) as T0. apply trials_spec in T0; auto; [|unfold largest in *; clear - B N2; lia].
      destruct T0 as (u & _ & _ & T1 & _). auto. }
    assert (L : p + 2 <= ceiling).
    { apply below_ceiling; auto; [clear - B; lia|]. intros ->. apply Np, ceiling_prime. }
    destruct (IH (p + 2) (i + m)%nat) as (k & r & R).
    + clear - G L. lia.
    + clear - B L. lia.
    + apply odd_step; auto.
    + exists (m + k)%nat, r. intros more fuel F. destruct fuel as [|f]; [lia|]. cbn [search].
      rewrite seq_app, map_app, <- app_assoc, T. cbn [obind fst snd].
      rewrite N.mod_small by (unfold largest in L; clear - L; lia). apply R. lia.
Qed.

(** * The generator *)

Lemma start_facts n : 2 < n < 1073741824 ->
  let p := if n mod 2 =? 0 then n + 1 else n in
  n <= p <= ceiling /\ N.odd p = true /\ skipped n p.
Proof.
  intros B. cbv zeta. unfold largest. destruct (N.eqb_spec (n mod 2) 0) as [E|E].
  - assert (Ev : N.odd n = false).
    { rewrite <- N.negb_even. apply negb_false_iff, N.even_spec. exists (n / 2). lia. }
    split; [lia|]. split; [rewrite N.odd_add, Ev; reflexivity|].
    intros q Q L. destruct (N.eq_dec q n) as [->|]; [|lia].
    apply even_not_prime in Q; auto. lia.
  - split; [lia|]. split; [|intros q _ L; exact L].
    apply N.odd_spec. exists (n / 2). lia.
Qed.

Theorem generate_spec n draws p : prime_generate n draws = Some p ->
  (p = 2 \/ N.odd p = true) /\ p <= ceiling /\
  (n <= ceiling -> n <= p /\ skipped n p) /\
  (is_prime p \/ exists before used after, draws = before ++ used ++ after /\
     length (bases n p used) = S (N.to_nat (rounds p)) /\ Forall (strong_liar p) (bases n p used)).
Proof.
  unfold prime_generate. destruct (N.leb_spec n 2) as [A|A].
  - intros H; injection H as <-. split; [auto|]. split; [unfold largest; clear; lia|]. split.
    + intros _. split; [exact A|]. intros q Q _. pose proof (prime_gt1 _ Q). lia.
    + left. exact prime_2.
  - destruct (N.leb_spec 1073741824 n) as [B|B].
    + intros H; injection H as <-. split; [right; reflexivity|]. split; [apply N.le_refl|]. split.
      * intros C. split; [exact C|]. intros q Q L. apply N.le_ngt. intros T.
        unfold largest in *.
        assert (q = 1073741824 \/ q = 1073741825 \/ q = 1073741826) as [->|[->| ->]] by (clear - B L T; lia).
        -- apply even_not_prime in Q; [|reflexivity]. discriminate.
        -- assert (D : (5 | Z.of_N 1073741825)%Z) by (exists 214748365%Z; reflexivity).
           destruct (prime_divisors _ Q _ D) as [X|[X|[X|X]]]; discriminate.
        -- apply even_not_prime in Q; [|reflexivity]. discriminate.
      * left. exact ceiling_prime.
    + intros H. destruct (start_facts n ltac:(clear - A B; lia)) as (F1 & F2 & F3).
      apply search_spec in H; auto; [|unfold largest; clear - A B; lia].
      destruct H as (H1 & H2 & H3 & H4). split; [auto|]. split; [clear - H1; lia|].
      split; [|right; exact H4]. intros _. split; [clear - H1; lia|exact H3].
Qed.

Theorem generate_terminates src n : keeps_drawing src ->
  exists k p, forall k', (k <= k')%nat -> prime_generate n (first_draws src k') = Some p.
Proof.
  intros K. unfold prime_generate. destruct (N.leb_spec n 2) as [A|A].
  - exists O, 2. reflexivity.
  - destruct (N.leb_spec 1073741824 n) as [B|B].
    + exists O, ceiling. reflexivity.
    + destruct (start_facts n ltac:(clear - A B; lia)) as (F1 & F2 & F3).
      assert (B' : 2 < n <= ceiling) by (unfold largest; clear - A B; lia).
      revert F1 F2. set (x := if n mod 2 =? 0 then n + 1 else n). intros F1 F2.
      assert (X : exists g, ceiling - x < N.of_nat g).
      { exists (N.to_nat (ceiling - x + 1)). rewrite N2Nat.id. clearbody x. clear. lia. }
      destruct X as [g X].
      destruct (search_supply src n K B' g x 0%nat X F1 F2) as (k & r & R).
      exists k, r. intros k' K'. unfold first_draws.
      replace k' with (k + (k' - k))%nat by lia. rewrite seq_app, map_app. apply R.
      rewrite app_length, !map_length, !seq_length. lia.
Qed.

Lemma rounds_tests p : S (N.to_nat (rounds p)) = N.to_nat (tests_of p).
Proof.
  unfold rounds, tests_of. destruct (p <=? 4); [reflexivity|].
  rewrite N.shiftr_div_pow2. change (2 ^ 2) with 4. clear. lia.
Qed.

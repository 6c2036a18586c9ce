(** Number theory used by the primality tests and by RSA: Fermat's little theorem
    and square roots of one modulo a prime. *)
Require Import List Arith NArith ZArith Znumtheory Zpow_facts Lia Bool Permutation.
Require Import ZifyBool ZifyNat ZifyN.
Import ListNotations.
Require Import Verif.Base.
Local Open Scope Z_scope.

Definition zprod (l : list Z) : Z := fold_right Z.mul 1 l.

Lemma zprod_perm l l' : Permutation l l' -> zprod l = zprod l'.
Proof. induction 1; unfold zprod in *; cbn [fold_right]; lia. Qed.

Lemma zprod_scale p a l : 0 < p ->
  zprod (map (fun x => a * x mod p) l) mod p = (a ^ Z.of_nat (length l) * zprod l) mod p.
Proof.
  intros P; induction l as [|x l IH]; [reflexivity|].
  cbn [map length]. unfold zprod in *; cbn [fold_right].
  rewrite Nat2Z.inj_succ, Z.pow_succ_r by apply Nat2Z.is_nonneg.
  rewrite Z.mul_mod_idemp_l by lia.
  rewrite <- Z.mul_mod_idemp_r by lia. rewrite IH. rewrite Z.mul_mod_idemp_r by lia.
  f_equal. ring.
Qed.

Lemma prime_gt1 p : prime p -> 1 < p.
Proof. intros [H _]; exact H. Qed.

Lemma prime_coprime p a : prime p -> 0 < a < p -> rel_prime a p.
Proof.
  intros P H. apply rel_prime_sym. apply prime_rel_prime; auto.
  intros D. apply Z.divide_pos_le in D; lia.
Qed.

Lemma zprod_coprime p l : prime p -> (forall x, In x l -> rel_prime x p) -> rel_prime (zprod l) p.
Proof.
  intros P; induction l as [|x l IH]; intros H; cbn.
  - apply rel_prime_1.
  - apply rel_prime_sym, rel_prime_mult; apply rel_prime_sym; [apply H; left; auto|].
    apply IH. intros y Y; apply H; right; auto.
Qed.

Lemma coprime_cancel p a x y : 1 < p -> rel_prime a p ->
  (a * x) mod p = (a * y) mod p -> x mod p = y mod p.
Proof.
  intros P R H.
  assert (D : (p | a * (x - y))).
  { apply Z.mod_divide; [lia|]. rewrite Z.mul_sub_distr_l, Zminus_mod, H, Z.sub_diag.
    apply Z.mod_0_l; lia. }
  apply rel_prime_sym in R. pose proof (Gauss _ _ _ D R) as [k K].
  replace x with (y + k * p) by lia. apply Z.mod_add; lia.
Qed.

Theorem fermat_little p a : prime p -> 0 < a < p -> a ^ (p - 1) mod p = 1.
Proof.
  intros P A. pose proof (prime_gt1 _ P) as P1.
  set (l := map Z.of_nat (seq 1 (Z.to_nat (p - 1)))).
  assert (L : length l = Z.to_nat (p - 1)) by (unfold l; rewrite map_length, seq_length; auto).
  assert (I : forall x, In x l <-> 0 < x < p).
  { intros x; unfold l; rewrite in_map_iff; split.
    - intros (n & <- & N). apply in_seq in N. lia.
    - intros X. exists (Z.to_nat x). split; [lia|]. apply in_seq. lia. }
  assert (ND : NoDup l).
  { unfold l. apply FinFun.Injective_map_NoDup; [intros x y; apply Nat2Z.inj|apply seq_NoDup]. }
  pose proof (prime_coprime _ _ P A) as R.
  assert (PM : Permutation l (map (fun x => a * x mod p) l)).
  { apply Permutation_sym. apply NoDup_Permutation_bis.
    - assert (G : forall k, incl k l -> NoDup k -> NoDup (map (fun x => a * x mod p) k)).
      { induction k as [|x k IH]; intros S N; [constructor|].
        inversion N; subst. cbn [map]. constructor.
        - rewrite in_map_iff. intros (y & Y & K). apply coprime_cancel in Y; auto.
          assert (X1 : 0 < x < p) by (apply I, S; left; auto).
          assert (Y1 : 0 < y < p) by (apply I, S; right; auto).
          rewrite !Z.mod_small in Y by lia. subst; auto.
        - apply IH; auto. intros z Z; apply S; right; auto. }
      apply G; auto. intros z Z; auto.
    - rewrite map_length; auto.
    - intros z Z. apply in_map_iff in Z. destruct Z as (x & <- & X). apply I in X. apply I.
      pose proof (Z.mod_pos_bound (a * x) p ltac:(lia)).
      assert (a * x mod p <> 0); [|lia].
      intros E. apply Z.mod_divide in E; [|lia].
      apply prime_mult in E; auto. destruct E as [E|E]; apply Z.divide_pos_le in E; lia. }
  pose proof (zprod_perm _ _ PM) as Q.
  pose proof (zprod_scale p a l ltac:(lia)) as S. rewrite <- Q, L, Z2Nat.id in S by lia.
  assert (C : rel_prime (zprod l) p).
  { apply zprod_coprime; auto. intros x X. apply prime_coprime; auto. apply I; auto. }
  assert (E : (zprod l * a ^ (p - 1)) mod p = (zprod l * 1) mod p).
  { rewrite Z.mul_1_r. rewrite S. f_equal. ring. }
  apply coprime_cancel in E; auto. rewrite E. apply Z.mod_small; lia.
Qed.

Lemma sqrt_of_one p x : prime p -> 0 <= x < p -> x * x mod p = 1 -> x = 1 \/ x = p - 1.
Proof.
  intros P X H. pose proof (prime_gt1 _ P).
  assert (D : (p | (x - 1) * (x + 1))).
  { apply Z.mod_divide; [lia|]. replace ((x - 1) * (x + 1)) with (x * x - 1) by ring.
    rewrite Zminus_mod, H, (Z.mod_small 1 p) by lia. apply Z.mod_0_l; lia. }
  apply prime_mult in D; auto. destruct D as [[k K]|[k K]].
  - left. assert (k = 0) by nia. lia.
  - right. assert (k = 1) by nia. lia.
Qed.

(** Trial division by every odd number up to the square root. *)
Fixpoint no_odd_divisor (fuel : nat) (d n : N) : bool :=
  match fuel with
  | O => true
  | S f => negb (n mod d =? 0)%N && no_odd_divisor f (d + 2)%N n
  end.

Lemma no_odd_divisor_spec fuel : forall d n, no_odd_divisor fuel d n = true ->
  forall i, (i < fuel)%nat -> (n mod (d + 2 * N.of_nat i) <> 0)%N.
Proof.
  induction fuel as [|f IH]; intros d n H i I; [lia|].
  cbn [no_odd_divisor] in H. apply andb_true_iff in H. destruct H as [H1 H2].
  destruct i as [|i].
  - replace (d + 2 * N.of_nat 0)%N with d by lia. lia.
  - specialize (IH _ _ H2 i ltac:(lia)). replace (d + 2 * N.of_nat (S i))%N with (d + 2 + 2 * N.of_nat i)%N by lia.
    exact IH.
Qed.

Lemma trial_division (n : N) (fuel : nat) :
  (1 < n)%N -> (n mod 2 = 1)%N -> no_odd_divisor fuel 3 n = true ->
  (n < (2 * N.of_nat fuel + 3) * (2 * N.of_nat fuel + 3))%N ->
  prime (Z.of_N n).
Proof.
  intros N1 O H B. apply prime_alt. split; [lia|].
  intros d D [k K].
  assert (G : forall e q, 1 < e -> Z.of_N n = q * e -> e < Z.of_N (2 * N.of_nat fuel + 3) -> False).
  { intros e q E1 E2 E3.
    assert (Od : e mod 2 = 1).
    { pose proof (Z.mod_pos_bound e 2 ltac:(lia)).
      assert (e mod 2 = 0 \/ e mod 2 = 1) as [E|E] by lia; auto.
      exfalso. assert (T : Z.of_N n mod 2 = 1) by (clear - O; lia).
      rewrite E2, Z.mul_mod, E, Z.mul_0_r in T by lia. discriminate. }
    assert (E4 : 3 <= e). { clear - E1 Od. destruct (Z.eq_dec e 2) as [->|]; [discriminate|lia]. }
    assert (X : exists i, (i < fuel)%nat /\ e = Z.of_N (3 + 2 * N.of_nat i)).
    { exists (Z.to_nat ((e - 3) / 2)). clear - Od E4 E3. split; lia. }
    destruct X as (i & I & E).
    pose proof (no_odd_divisor_spec _ _ _ H i I) as M. apply M. clear - E2 E E4.
    apply N2Z.inj. rewrite N2Z.inj_mod, E2, E by lia. apply Z.mod_mul. lia. }
  destruct (Z_lt_le_dec d (Z.of_N (2 * N.of_nat fuel + 3))) as [L|L].
  - apply (G d k); lia.
  - assert (1 < k) by nia.
    apply (G k d); [lia|lia|]. apply Z.nle_gt. intros L2.
    assert (Z.of_N (2 * N.of_nat fuel + 3) * Z.of_N (2 * N.of_nat fuel + 3) <= k * d) by (apply Z.mul_le_mono_nonneg; lia).
    clear - B K H1. lia.
Qed.

Lemma prime_ceiling : prime (Z.of_N 1073741827).
Proof.
  apply (trial_division 1073741827 (N.to_nat 16383)); vm_compute; reflexivity.
Qed.

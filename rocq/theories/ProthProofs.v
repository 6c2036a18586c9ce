(** Proth's criterion, used to show concrete primes in examples. *)
Require Import List Arith NArith ZArith Znumtheory Zpow_facts Lia Bool.
Import ListNotations.
Require Import Verif.NumProofs.
Local Open Scope Z_scope.

Lemma two_power_part : forall n, 0 < n -> exists j t, 0 <= j /\ 0 <= t /\ n = 2 ^ j * (2 * t + 1).
Proof.
  intros n. assert (H : 0 <= n \/ n < 0) by lia. destruct H as [H|H]; [|lia]. revert n H.
  apply (Z_lt_induction (fun n => 0 < n -> exists j t, 0 <= j /\ 0 <= t /\ n = 2 ^ j * (2 * t + 1))).
  intros n IH N. pose proof (Z.div_mod n 2 ltac:(lia)) as D. pose proof (Z.mod_pos_bound n 2 ltac:(lia)) as B.
  destruct (Z.eq_dec (n mod 2) 1) as [E|E].
  - exists 0, (n / 2). split; [lia|]. split; [apply Z.div_pos; lia|]. rewrite Z.pow_0_r. lia.
  - assert (E0 : n mod 2 = 0) by lia. destruct (IH (n / 2)) as (j & t & J & T & F); [split; [apply Z.div_pos; lia|apply Z.div_lt; lia]|lia|].
    exists (j + 1), t. split; [lia|]. split; [lia|]. rewrite Z.pow_add_r, Z.pow_1_r by lia. rewrite D, E0, F at 1. ring.
Qed.

Lemma prime_factor : forall n, 0 <= n -> 1 < n -> exists r, prime r /\ (r | n).
Proof.
  apply (Z_lt_induction (fun n => 1 < n -> exists r, prime r /\ (r | n))).
  intros n IH N. destruct (prime_dec n) as [P|P]; [exists n; split; [exact P|apply Z.divide_refl]|].
  destruct (not_prime_divide n N P) as (d & D & V). destruct (IH d ltac:(lia) ltac:(lia)) as (r & R & W).
  exists r. split; [exact R|]. eapply Z.divide_trans; eassumption.
Qed.

Lemma small_factor n : 1 < n -> ~ prime n -> exists r, prime r /\ (r | n) /\ r * r <= n.
Proof.
  intros N P. destruct (not_prime_divide n N P) as (d & D & [k K]).
  assert (1 < k) by nia.
  assert (S : exists x y, 1 < x /\ x <= y /\ n = y * x) by (destruct (Z.le_gt_cases d k); [exists d, k|exists k, d]; nia).
  destruct S as (x & y & X & Y & E). destruct (prime_factor x ltac:(lia) X) as (r & R & V).
  exists r. split; [exact R|]. split; [rewrite E; apply Z.divide_mul_r; exact V|].
  pose proof (Z.divide_pos_le r x ltac:(lia) V). pose proof (prime_gt1 _ R). assert (r * r <= x * x) by (apply Z.mul_le_mono_nonneg; lia). assert (x * x <= y * x) by (apply Z.mul_le_mono_nonneg_r; lia). lia.
Qed.

Lemma pow_one r a x : 1 < r -> 0 <= x -> a mod r = 1 -> a ^ x mod r = 1.
Proof. intros R X E. rewrite Zpower_mod, E, Z.pow_1_l by lia. apply Z.mod_small. lia. Qed.

Lemma minus_one_odd r a t : 1 < r -> 0 <= t -> a mod r = r - 1 -> a ^ (2 * t + 1) mod r = r - 1.
Proof.
  intros R T E. rewrite Zpower_mod, E by lia. rewrite Z.pow_add_r, Z.pow_1_r, Z.pow_mul_r by lia.
  rewrite <- Z.mul_mod_idemp_l by lia. rewrite (pow_one r); [|lia|lia|].
  - rewrite Z.mul_1_l. apply Z.mod_small. lia.
  - replace ((r - 1) ^ 2) with (1 + (r - 2) * r) by ring. rewrite Z.mod_add by lia. apply Z.mod_small. lia.
Qed.

Theorem proth k m a : 0 < k < 2 ^ m -> 1 <= m -> a ^ (k * 2 ^ (m - 1)) mod (k * 2 ^ m + 1) = k * 2 ^ m -> prime (k * 2 ^ m + 1).
Proof.
  intros K M H. set (n := k * 2 ^ m + 1) in *. set (h := k * 2 ^ (m - 1)) in *.
  assert (Em : 2 ^ m = 2 * 2 ^ (m - 1)) by (rewrite <- Z.pow_succ_r by lia; f_equal; lia).
  assert (P1 : 0 < 2 ^ (m - 1)) by (apply Z.pow_pos_nonneg; lia).
  assert (H0 : 0 < h) by (apply Z.mul_pos_pos; lia).
  assert (N : 2 < n) by (unfold n; nia).
  destruct (prime_dec n) as [Pn|Pn]; [exact Pn|exfalso].
  destruct (small_factor n ltac:(lia) Pn) as (r & R & V & S). pose proof (prime_gt1 _ R) as R1.
  (* modulo r the power is -1 *)
  assert (Hr : a ^ h mod r = r - 1).
  { assert (E : a ^ h mod n mod r = a ^ h mod r) by (symmetry; apply Zmod_div_mod; [lia|lia|exact V]).
    rewrite <- E, H. destruct V as [v V]. replace (k * 2 ^ m) with (r - 1 + (v - 1) * r) by (unfold n in V; lia).
    rewrite Z.mod_add by lia. apply Z.mod_small. lia. }
  assert (R2 : r <> 2). { intros ->. destruct V as [v V]. unfold n in V. rewrite Em in V. nia. }
  (* a is not a multiple of r *)
  assert (A : 0 < a mod r < r).
  { pose proof (Z.mod_pos_bound a r ltac:(lia)) as B. destruct (Z.eq_dec (a mod r) 0) as [Z|Z]; [exfalso|lia].
    rewrite Zpower_mod, Z, Z.pow_0_l in Hr by (clear - H0 R1; lia). rewrite Z.mod_0_l in Hr by (clear - R1; lia). clear - Hr R1. lia. }
  pose proof (fermat_little r _ R A) as F. rewrite <- Zpower_mod in F by lia.
  destruct (two_power_part (r - 1) ltac:(lia)) as (j & t & J & T & Er).
  destruct (Z.le_gt_cases m j) as [C|C].
  - assert (2 ^ m <= 2 ^ j) by (apply Z.pow_le_mono_r; lia). unfold n in S. assert (2 ^ m <= r - 1) by (rewrite Er; clear - H1 T P1 Em; nia). clear - S H2 K R1. assert (2 ^ m * 2 ^ m <= (r - 1) * (r - 1)) by (apply Z.mul_le_mono_nonneg; lia). nia.
  - (* the odd power of -1 is -1, but it is also a power of one *)
    assert (X : a ^ (h * (2 * t + 1)) mod r = r - 1).
    { rewrite Z.pow_mul_r by (clear - H0 T; lia). apply minus_one_odd; assumption. }
    assert (Y : a ^ (h * (2 * t + 1)) mod r = 1).
    { replace (h * (2 * t + 1)) with ((r - 1) * (k * 2 ^ (m - 1 - j))).
      - rewrite Z.pow_mul_r; [|lia|]. { apply pow_one; [lia| |exact F]. apply Z.mul_nonneg_nonneg; [lia|]. apply Z.pow_nonneg; lia. }
        apply Z.mul_nonneg_nonneg; [lia|]. apply Z.pow_nonneg; lia.
      - rewrite Er. unfold h. replace (2 ^ (m - 1)) with (2 ^ j * 2 ^ (m - 1 - j)) by (rewrite <- Z.pow_add_r by lia; f_equal; lia). ring. }
    rewrite X in Y. lia.
Qed.

(** The power modulo a number by squaring, for checking the criterion. *)
Fixpoint pow_mod (a : Z) (e : positive) (n : Z) : Z :=
  match e with
  | xH => a mod n
  | xO e' => let s := pow_mod a e' n in (s * s) mod n
  | xI e' => let s := pow_mod a e' n in (s * s mod n) * a mod n
  end.
Lemma pow_mod_ok a n : 0 < n -> forall e, pow_mod a e n = a ^ Zpos e mod n.
Proof.
  intros N. induction e as [e IH|e IH|]; cbn [pow_mod]; [| |rewrite Z.pow_1_r; reflexivity].
  - rewrite IH, <- Z.mul_mod by lia. rewrite Z.mul_mod_idemp_l by lia. rewrite Pos2Z.inj_xI. f_equal.
    rewrite Z.pow_add_r, Z.pow_1_r by lia. rewrite <- Z.add_diag, Z.pow_add_r by lia. reflexivity.
  - rewrite IH, <- Z.mul_mod by lia. rewrite Pos2Z.inj_xO. rewrite <- Z.add_diag, Z.pow_add_r by lia. reflexivity.
Qed.

Definition proth_check (k m a : positive) : bool :=
  let n := Zpos k * 2 ^ Zpos m + 1 in
  (Zpos k <? 2 ^ Zpos m) &&
  negb (m =? 1)%positive && (pow_mod (Zpos a) (k * 2 ^ Pos.pred m) n =? n - 1).

Lemma proth_checked k m a : proth_check k m a = true -> prime (Zpos k * 2 ^ Zpos m + 1).
Proof.
  unfold proth_check. cbv zeta. intros H. apply andb_true_iff in H. destruct H as [H1 H2]. apply andb_true_iff in H1. destruct H1 as [H1 H3]. apply Z.ltb_lt in H1.
  destruct (Pos.eqb_spec m 1) as [|M]; [discriminate|]. apply Z.eqb_eq in H2.
  apply (proth _ _ (Zpos a)); [lia|lia|]. rewrite pow_mod_ok in H2 by lia.
  rewrite Pos2Z.inj_mul, Pos2Z.inj_pow, Pos2Z.inj_pred in H2 by exact M. rewrite Z.sub_1_r. lia.
Qed.

(** Key pairs for the examples: one of 96 bits, one of 372 bits and one of 97 bits. *)
Require Import List Arith NArith ZArith Znumtheory Bool.
Require Import Verif.Base Verif.BnModel Verif.BnSpec Verif.BnProofs Verif.ProthProofs Verif.RsaModel Verif.RsaSpec.
Import ListNotations.
Open Scope N_scope.

(** The structure for a number. *)
Fixpoint digits (fuel : nat) (x : N) : list N :=
  match fuel with O => [] | S f => if x =? 0 then [] else x mod 2 ^ 32 :: digits f (x / 2 ^ 32) end.
Definition number (x : N) : bn := of_limbs false (digits 128 x).
Definition make (n x p q i : N) : key := mkKey (number n) (number x) (number p) (number q) (number (x mod (p - 1))) (number (x mod (q - 1))) (number i) false.

Definition holdsb (b : bn) (x : N) : bool := wfb b && (value b =? Z.of_N x)%Z.
Lemma holdsb_ok b x : holdsb b x = true -> holds b x.
Proof. intros H. apply andb_true_iff in H. destruct H as [H1 H2]. split; [apply wfb_ok; exact H1|apply Z.eqb_eq; exact H2]. Qed.

Definition key_check (n x p q i : N) : bool :=
  forallb (fun v => holdsb (number v) v) [n; x; p; q; x mod (p - 1); x mod (q - 1); i] && (i <=? p) && ((q * i) mod p =? 1).
Lemma key_checked n x p q i : key_check n x p q i = true -> key_for (make n x p q i) n x p q.
Proof.
  intros H. apply andb_true_iff in H. destruct H as [H H3]. apply andb_true_iff in H. destruct H as [H1 H2].
  pose proof (proj1 (forallb_forall _ _) H1) as F.
  assert (G : forall v, In v [n; x; p; q; x mod (p - 1); x mod (q - 1); i] -> holds (number v) v) by (intros v Hv; apply holdsb_ok, F; exact Hv).
  constructor; cbn [make k_n k_ed k_p k_q k_dp k_dq k_qinv k_pwr]; try intros _; try (apply G; cbn [In]; tauto).
  exists i. split; [apply G; cbn [In]; tauto|]. split; [apply N.leb_le; exact H2|apply N.eqb_eq; exact H3].
Qed.

Definition keys_check (n e d p q i : N) : bool :=
  key_check n e p q i && key_check n d p q i && negb (p =? q) && (n =? p * q) && ((e * d) mod ((p - 1) * (q - 1)) =? 1) &&
  (2 ^ 32 <=? p) && (2 ^ 32 <=? q) && (N.size n <=? 4096) && (2 <=? e) && (e <? p - 1) && (e <? q - 1).
Lemma keys_checked n e d p q i : prime (Z.of_N p) -> prime (Z.of_N q) -> keys_check n e d p q i = true ->
  keys (make n e p q i) (make n d p q i) n e d p q.
Proof.
  intros Pp Pq H. unfold keys_check in H. rewrite !andb_true_iff in H.
  destruct H as [[[[[[[[[[K1 K2] D] En] Ed] Gp] Gq] Sz] E2] Ep] Eq].
  constructor; try (apply key_checked; assumption); try (apply N.leb_le; assumption); try (apply N.ltb_lt; assumption).
  - constructor; try assumption; try (apply N.eqb_eq; assumption).
    intros ->. rewrite N.eqb_refl in D. discriminate.
  - apply N.leb_le in Sz. eapply N.lt_le_trans; [apply N.size_gt|]. apply N.pow_le_mono_r; [discriminate|assumption].
Qed.

Definition small_p : N := 4481985 * 2 ^ 26 + 1.
Definition small_q : N := 6660753 * 2 ^ 25 + 1.
Definition small_n : N := small_p * small_q.
Definition small_d : N := 14112119793232106053663916033.
Definition small_i : N := 143133809071003.
Definition small_pub : key := make small_n 65537 small_p small_q small_i.
Definition small_pri : key := make small_n small_d small_p small_q small_i.
Lemma small_keys : keys small_pub small_pri small_n 65537 small_d small_p small_q.
Proof.
  apply keys_checked.
  - change (prime (4481985 * 2 ^ 26 + 1)%Z). apply (proth_checked _ _ 7). vm_compute. reflexivity.
  - change (prime (6660753 * 2 ^ 25 + 1)%Z). apply (proth_checked _ _ 5). vm_compute. reflexivity.
  - vm_compute. reflexivity.
Qed.

Definition mid_p : N := 4754319106825567542205627563 * 2 ^ 94 + 1.
Definition mid_q : N := 4023059344957901248375197519 * 2 ^ 94 + 1.
Definition mid_n : N := mid_p * mid_q.
Definition mid_d : N := 3986815712050808002556645445409688464747632796728589643543377625097631855892088230133115421257487611096651988993.
Definition mid_i : N := 28093970990489646356771791636318210137050349568638294993.
Definition mid_pub : key := make mid_n 65537 mid_p mid_q mid_i.
Definition mid_pri : key := make mid_n mid_d mid_p mid_q mid_i.
Lemma mid_keys : keys mid_pub mid_pri mid_n 65537 mid_d mid_p mid_q.
Proof.
  apply keys_checked.
  - change (prime (4754319106825567542205627563 * 2 ^ 94 + 1)%Z). apply (proth_checked _ _ 5). vm_compute. reflexivity.
  - change (prime (4023059344957901248375197519 * 2 ^ 94 + 1)%Z). apply (proth_checked _ _ 5). vm_compute. reflexivity.
  - vm_compute. reflexivity.
Qed.

Definition short_p : N := 7371219 * 2 ^ 26 + 1.
Definition short_q : N := 8168619 * 2 ^ 25 + 1.
Definition short_n : N := short_p * short_q.
Definition short_d : N := 26222804915757024962787868673.
Definition short_i : N := 131563088451983.
Definition short_pub : key := make short_n 65537 short_p short_q short_i.
Definition short_pri : key := make short_n short_d short_p short_q short_i.
Lemma short_keys : keys short_pub short_pri short_n 65537 short_d short_p short_q.
Proof.
  apply keys_checked.
  - change (prime (7371219 * 2 ^ 26 + 1)%Z). apply (proth_checked _ _ 5). vm_compute. reflexivity.
  - change (prime (8168619 * 2 ^ 25 + 1)%Z). apply (proth_checked _ _ 23). vm_compute. reflexivity.
  - vm_compute. reflexivity.
Qed.

(** Random numbers for which the generator gives the pairs of 96 and of 97 bits when asked for 96. *)
Definition small_draws : list N := [67108864; 64891; 2; 0; 2; 0; 2; 0; 2; 0; 570425344; 8425; 2; 0; 2; 0; 2; 0; 2; 0].
Lemma small_generated : key_generate 96 small_draws = Some (Some (small_pub, small_pri, [])).
Proof. vm_compute. reflexivity. Qed.
Definition short_draws : list N := [1275068416; 127667; 2; 0; 2; 0; 2; 0; 2; 0; 1442840576; 33853; 2; 0; 2; 0; 2; 0; 2; 0].
Lemma short_generated : key_generate 96 short_draws = Some (Some (short_pub, short_pri, [])).
Proof. vm_compute. reflexivity. Qed.

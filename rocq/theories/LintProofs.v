Require Import ZArith Bool List Lia.
Require Import Verif.LintModel Verif.LintSpec.
Open Scope Z_scope.

Lemma fits_int64 z : fits z = true <-> int64 z.
Proof. unfold fits, int64. change (2 ^ 63) with 9223372036854775808. rewrite andb_true_iff, Z.leb_le, Z.ltb_lt. lia. Qed.
Lemma checked_int z c : checked z = IntV c <-> c = z /\ int64 z.
Proof. unfold checked. rewrite <- fits_int64. destruct (fits z); split; [intros [= <-]; auto|intros (-> & _); reflexivity|discriminate|intros (_ & C); discriminate C]. Qed.
Lemma checked_un z : checked z = Undefined <-> ~ int64 z.
Proof. unfold checked. rewrite <- fits_int64. destruct (fits z); split; congruence. Qed.

Lemma div_fits a b : int64 a -> int64 b -> b <> 0 -> (int64 (Z.quot a b) <-> ~ (a = - 9223372036854775808 /\ b = -1)).
Proof.
  intros A B N. split.
  - intros H (-> & ->). change (Z.quot (-9223372036854775808) (-1)) with 9223372036854775808 in H. unfold int64 in H. lia.
  - intros H. assert (Q : Z.abs (Z.quot a b) <= Z.abs a).
    { rewrite <- Z.quot_abs by exact N. apply Z.quot_le_upper_bound; [lia|]. nia. }
    unfold int64 in *. destruct (Z.eq_dec a (- 9223372036854775808)) as [->|n]; [|lia].
    destruct (Z.eq_dec b 1) as [->|n1]; [rewrite Z.quot_1_r; lia|].
    assert (Q2 : Z.abs (Z.quot (- 9223372036854775808) b) <= 4611686018427387904).
    { rewrite <- Z.quot_abs by exact N. apply Z.quot_le_upper_bound; lia. }
    lia.
Qed.
Lemma quot_exact a b : b <> 0 -> exact Div a b (Z.quot a b) /\ exact Mod a b (Z.rem a b).
Proof.
  intros N. pose proof (Z.quot_rem a b N) as E. pose proof (Z.rem_bound_abs a b N) as B.
  assert (S : Z.rem a b = 0 \/ (0 < a <-> 0 < Z.rem a b)).
  { destruct (Z.eq_dec (Z.rem a b) 0) as [|n]; [auto|right]. pose proof (Z.rem_sign_nz a b N n) as Sg.
    rewrite <- (Z.sgn_pos_iff a), <- (Z.sgn_pos_iff (Z.rem a b)), Sg. reflexivity. }
  cbn [exact]. split; [exists (Z.rem a b)|exists (Z.quot a b)]; auto.
Qed.
Lemma rem_int a b : int64 a -> int64 b -> b <> 0 -> int64 (Z.rem a b).
Proof. intros A B N. pose proof (Z.rem_bound_abs a b N). unfold int64 in *. lia. Qed.

(** Numbers of 64 bits are those whose bits from 63 on are the same. *)
Lemma int64_bits z : int64 z <-> (forall n, 63 <= n -> Z.testbit z n = (z <? 0)).
Proof.
  assert (R : int64 z <-> Z.shiftr z 63 = if z <? 0 then -1 else 0).
  { rewrite Z.shiftr_div_pow2 by lia. change (2 ^ 63) with 9223372036854775808. unfold int64.
    destruct (Z.ltb_spec z 0); split; intros Hz.
    - symmetry. apply (Z.div_unique_pos z 9223372036854775808 (-1) (z + 9223372036854775808)); lia.
    - pose proof (Z.div_mod z 9223372036854775808 ltac:(lia)). pose proof (Z.mod_pos_bound z 9223372036854775808 ltac:(lia)). lia.
    - apply Z.div_small. lia.
    - pose proof (Z.div_mod z 9223372036854775808 ltac:(lia)). pose proof (Z.mod_pos_bound z 9223372036854775808 ltac:(lia)). lia. }
  rewrite R. split.
  - intros E n Hn. replace n with ((n - 63) + 63) by lia. rewrite <- Z.shiftr_spec by lia. rewrite E.
    destruct (z <? 0); [apply Z.bits_m1; lia|apply Z.bits_0].
  - intros H. apply Z.bits_inj'. intros n Hn. rewrite Z.shiftr_spec by lia. rewrite H by lia. destruct (z <? 0); [rewrite Z.bits_m1 by lia|rewrite Z.bits_0]; reflexivity.
Qed.
Lemma bit_int (f : Z -> Z -> Z) (g : bool -> bool -> bool) :
  (forall a b n, Z.testbit (f a b) n = g (Z.testbit a n) (Z.testbit b n)) -> (forall a b, (f a b <? 0) = g (a <? 0) (b <? 0)) ->
  forall a b, int64 a -> int64 b -> int64 (f a b) /\ bits g a b (f a b).
Proof.
  intros Hb Hs a b A B. split; [|intros n _; apply Hb]. apply int64_bits. intros n Hn. rewrite Hb, Hs.
  rewrite (proj1 (int64_bits a) A n Hn), (proj1 (int64_bits b) B n Hn). reflexivity.
Qed.
Lemma or_int a b : int64 a -> int64 b -> int64 (Z.lor a b) /\ bits orb a b (Z.lor a b).
Proof. apply bit_int; [apply Z.lor_spec|]. intros x y. pose proof (Z.lor_neg x y). destruct (Z.ltb_spec x 0), (Z.ltb_spec y 0), (Z.ltb_spec (Z.lor x y) 0); cbn [orb]; try reflexivity; lia. Qed.
Lemma and_int a b : int64 a -> int64 b -> int64 (Z.land a b) /\ bits andb a b (Z.land a b).
Proof. apply bit_int; [apply Z.land_spec|]. intros x y. pose proof (Z.land_neg x y). destruct (Z.ltb_spec x 0), (Z.ltb_spec y 0), (Z.ltb_spec (Z.land x y) 0); cbn [andb]; try reflexivity; lia. Qed.
Lemma xor_int a b : int64 a -> int64 b -> int64 (Z.lxor a b) /\ bits xorb a b (Z.lxor a b).
Proof.
  apply bit_int; [apply Z.lxor_spec|]. intros x y. pose proof (Z.lxor_nonneg x y).
  destruct (Z.ltb_spec x 0), (Z.ltb_spec y 0), (Z.ltb_spec (Z.lxor x y) 0); cbn [xorb]; try reflexivity; lia.
Qed.
Lemma shiftr_int a b : int64 a -> 0 <= b -> int64 (Z.shiftr a b) /\ exact Rmov a b (Z.shiftr a b).
Proof.
  intros A B. rewrite Z.shiftr_div_pow2 by exact B. assert (P : 0 < 2 ^ b) by (apply Z.pow_pos_nonneg; lia). cbn [exact].
  pose proof (Z.div_mod a (2 ^ b) ltac:(lia)). pose proof (Z.mod_pos_bound a (2 ^ b) P). unfold int64 in *. split; [|nia]. 
  split; [apply Z.div_le_lower_bound; nia|apply Z.div_le_upper_bound; nia].
Qed.

Lemma prim_ok o a b : int64 a -> int64 b -> compares o = false ->
  match prim o a b with
  | IntV c => defined o a b /\ int64 c /\ exact o a b c
  | DivZero => b = 0 /\ (o = Div \/ o = Mod)
  | Undefined => ~ defined o a b
  | _ => False
  end.
Proof.
  intros A B. destruct o; cbn [compares prim]; try discriminate; intros _.
  - destruct (checked (a + b)) eqn:E; unfold checked in E; destruct (fits (a + b)) eqn:F; try discriminate E.
    + injection E as <-. apply fits_int64 in F. cbn [defined exact]. auto.
    + cbn [defined]. rewrite <- fits_int64. congruence.
  - destruct (checked (a - b)) eqn:E; unfold checked in E; destruct (fits (a - b)) eqn:F; try discriminate E.
    + injection E as <-. apply fits_int64 in F. cbn [defined exact]. split; [exact F|]. split; [exact F|lia].
    + cbn [defined]. rewrite <- fits_int64. congruence.
  - destruct (checked (a * b)) eqn:E; unfold checked in E; destruct (fits (a * b)) eqn:F; try discriminate E.
    + injection E as <-. apply fits_int64 in F. cbn [defined exact]. auto.
    + cbn [defined]. rewrite <- fits_int64. congruence.
  - destruct (Z.eqb_spec b 0) as [->|n]; [auto|]. unfold checked. destruct (fits (Z.quot a b)) eqn:F.
    + apply fits_int64 in F. split; [apply (div_fits a b A B n); exact F|]. split; [exact F|]. apply quot_exact. exact n.
    + intros D. apply (div_fits a b A B n) in D. apply fits_int64 in D. congruence.
  - destruct (Z.eqb_spec b 0) as [->|n]; [auto|]. destruct (fits (Z.quot a b)) eqn:F.
    + apply fits_int64 in F. split; [apply (div_fits a b A B n); exact F|]. split; [apply rem_int; assumption|]. apply quot_exact. exact n.
    + intros D. apply (div_fits a b A B n) in D. apply fits_int64 in D. congruence.
  - cbn [defined exact]. destruct (Z.leb_spec 0 b); cbn [andb]; [|lia]. destruct (Z.ltb_spec b 64); cbn [andb]; [|lia]. destruct (Z.leb_spec 0 a); [|lia].
    rewrite Z.shiftl_mul_pow2 by assumption. assert (P : 0 <= 2 ^ b) by (apply Z.pow_nonneg; lia). assert (M : 0 <= a * 2 ^ b) by nia.
    unfold checked. destruct (fits (a * 2 ^ b)) eqn:F.
    + apply fits_int64 in F. split; [|auto]. unfold int64 in F. lia.
    + intros D. assert (C : int64 (a * 2 ^ b)) by (unfold int64; lia). apply fits_int64 in C. congruence.
  - cbn [defined]. destruct (Z.leb_spec 0 b); cbn [andb]; [|lia]. destruct (Z.ltb_spec b 64); [|lia].
    split; [lia|]. apply shiftr_int; assumption.
  - split; [exact I|]. apply or_int; assumption.
  - split; [exact I|]. apply and_int; assumption.
  - split; [exact I|]. apply xor_int; assumption.
Qed.
Lemma prim_compare o a b : compares o = true -> exists c, prim o a b = BoolV c /\ (c = true <-> holds o a b).
Proof.
  destruct o; cbn [compares prim holds]; try discriminate; intros _; eexists; split; try reflexivity.
  - apply Z.eqb_eq.
  - rewrite negb_true_iff. apply Z.eqb_neq.
  - apply Z.ltb_lt.
  - apply Z.leb_le.
  - rewrite Z.ltb_lt. lia.
  - rewrite Z.leb_le. lia.
Qed.

(** The specification leaves no choice: there is at most one integer that it allows. *)
Lemma trunc_unique : forall a b q q' r r', a = b * q + r -> a = b * q' + r' -> Z.abs r < Z.abs b -> Z.abs r' < Z.abs b ->
  (r = 0 \/ (0 < a <-> 0 < r)) -> (r' = 0 \/ (0 < a <-> 0 < r')) -> q = q' /\ r = r'.
Proof.
  intros a b q q' r r' E E' L L' S S'.
  assert (D : b * (q - q') = r' - r) by lia.
  assert (Z.abs (r' - r) < Z.abs b) as M.
  { destruct (Z.lt_trichotomy a 0) as [H|[H|H]]; [lia| |lia].
    subst a. lia. }
  assert (q - q' = 0) as Q.
  { destruct (Z.eq_dec (q - q') 0) as [|N]; [assumption|exfalso]. rewrite <- D in M. rewrite Z.abs_mul in M. assert (1 <= Z.abs (q - q')) by lia. nia. }
  rewrite Q in D. lia.
Qed.
Lemma exact_unique : forall o a b c c', 0 <= b \/ o <> Rmov -> exact o a b c -> exact o a b c' -> c = c'.
Proof.
  intros o a b c c' P E E'. destruct o; cbn [exact] in E, E'; try contradiction; try lia.
  - destruct E as (r & E1 & E2 & E3), E' as (r' & F1 & F2 & F3). exact (proj1 (trunc_unique a b c c' r r' E1 F1 E2 F2 E3 F3)).
  - destruct E as (q & E1 & E2 & E3), E' as (q' & F1 & F2 & F3). exact (proj2 (trunc_unique a b q q' c c' E1 F1 E2 F2 E3 F3)).
  - destruct P as [P|P]; [|congruence]. pose proof (Z.pow_pos_nonneg 2 b ltac:(lia) P) as W. nia.
  - apply Z.bits_inj'. intros n N. rewrite (E n N), (E' n N). reflexivity.
  - apply Z.bits_inj'. intros n N. rewrite (E n N), (E' n N). reflexivity.
  - apply Z.bits_inj'. intros n N. rewrite (E n N), (E' n N). reflexivity.
Qed.

(** * Gauss-Jordan elimination computes inverses *)

From Coq Require Import List Arith Lia Ring Ring_theory.
From Verif Require Import GaussModel GaussSpec.
Import ListNotations.

(** ** Lists *)

Lemma map2_length {A B C} (f : A -> B -> C) l1 l2 :
  length (map2 f l1 l2) = Nat.min (length l1) (length l2).
Proof. revert l2; induction l1; intros [|y l2]; cbn; auto. Qed.

Lemma nth_map2 {A B C} (f : A -> B -> C) l1 l2 i da db dc :
  i < length l1 -> i < length l2 ->
  nth i (map2 f l1 l2) dc = f (nth i l1 da) (nth i l2 db).
Proof.
  revert l2 i; induction l1; intros [|y l2] i H1 H2; cbn in *; try lia.
  destruct i; [reflexivity|]. apply IHl1; lia.
Qed.

Lemma mapi_length {A B} (f : nat -> A -> B) l : length (mapi f l) = length l.
Proof. unfold mapi. rewrite map2_length, seq_length. apply Nat.min_id. Qed.

Lemma nth_mapi {A B} (f : nat -> A -> B) l i da db :
  i < length l -> nth i (mapi f l) db = f i (nth i l da).
Proof.
  intros H. unfold mapi. rewrite (nth_map2 f _ _ i 0 da) by (rewrite ?seq_length; exact H).
  rewrite seq_nth by exact H. reflexivity.
Qed.

Lemma set_nth_length {A} (l : list A) i v : length (set_nth l i v) = length l.
Proof. revert i; induction l; intros [|i]; cbn; auto. Qed.

Lemma nth_set_nth {A} (l : list A) i j v d :
  i < length l -> nth j (set_nth l i v) d = if Nat.eqb j i then v else nth j l d.
Proof.
  revert i j; induction l; intros i j H; cbn in *; [lia|].
  destruct i, j; cbn; try reflexivity. apply IHl; lia.
Qed.

Lemma Forall_nth' {A} (P : A -> Prop) l d :
  (forall i, i < length l -> P (nth i l d)) -> Forall P l.
Proof.
  induction l; intros H; constructor.
  - apply (H 0); cbn; lia.
  - apply IHl. intros i Hi. apply (H (S i)). cbn; lia.
Qed.

Section Proofs.

Variable F : Type.
Variables zero one : F.
Variables add sub mul div : F -> F -> F.
Variable opp : F -> F.
Variable better : F -> F -> bool.
Variable tiny : F -> bool.

Hypothesis ring_F : ring_theory zero one add mul sub opp (@eq F).
Hypothesis div_mul : forall x y, div x y = mul x (div one y).
Hypothesis div_one : forall y, y <> zero -> mul (div one y) y = one.
Hypothesis tiny_ne : forall x, tiny x = false -> x <> zero.

Add Ring F_ring : ring_F.

Notation matrix := (list (list F)).
Notation cell := (cell F zero).
Notation row := (row F).
Notation sum := (sum F zero add).
Notation entry := (entry F zero).
Notation shape := (shape F).
Notation reduce := (reduce F zero sub mul div better tiny).
Notation invert := (invert F zero one sub mul div better tiny).
Notation pivot := (pivot F zero better).
Notation swap_rows := (swap_rows F).
Notation scale_row := (scale_row F div).
Notation clear_col := (clear_col F zero sub mul).

Lemma shape_row (m : matrix) r c i : shape m r c -> i < r -> length (row m i) = c.
Proof.
  intros [H1 H2] H. rewrite Forall_forall in H2. apply H2. unfold GaussModel.row.
  apply nth_In. lia.
Qed.

Lemma shape_intro (m : matrix) r c :
  length m = r -> (forall i, i < r -> length (row m i) = c) -> shape m r c.
Proof.
  intros H1 H2. split; [exact H1|]. apply Forall_nth' with (d := []).
  intros i Hi. apply H2. lia.
Qed.

(** ** Sums *)

Lemma sum_ext n f g : (forall k, k < n -> f k = g k) -> sum n f = sum n g.
Proof.
  induction n; intros H; cbn; [reflexivity|].
  rewrite IHn by (intros; apply H; lia). rewrite H by lia. reflexivity.
Qed.

Lemma sum_zero n f : (forall k, k < n -> f k = zero) -> sum n f = zero.
Proof.
  induction n; intros H; cbn; [reflexivity|].
  rewrite IHn by (intros; apply H; lia). rewrite H by lia. ring.
Qed.

Lemma sum_add n f g : sum n (fun k => add (f k) (g k)) = add (sum n f) (sum n g).
Proof. induction n; cbn; [ring|]. rewrite IHn. ring. Qed.

Lemma sum_sub n f g : sum n (fun k => sub (f k) (g k)) = sub (sum n f) (sum n g).
Proof. induction n; cbn; [ring|]. rewrite IHn. ring. Qed.

Lemma sum_mul_l n c f : sum n (fun k => mul c (f k)) = mul c (sum n f).
Proof. induction n; cbn; [ring|]. rewrite IHn. ring. Qed.

Lemma sum_mul_r n c f : sum n (fun k => mul (f k) c) = mul (sum n f) c.
Proof. induction n; cbn; [ring|]. rewrite IHn. ring. Qed.

Lemma sum_swap n m f :
  sum n (fun i => sum m (fun j => f i j)) = sum m (fun j => sum n (fun i => f i j)).
Proof.
  induction n; cbn.
  - symmetry. apply sum_zero. reflexivity.
  - rewrite IHn, <- sum_add. reflexivity.
Qed.

Lemma sum_one n i f : i < n -> (forall k, k < n -> k <> i -> f k = zero) -> sum n f = f i.
Proof.
  induction n; intros Hi H; [lia|]. cbn.
  destruct (Nat.eq_dec i n) as [->|Hne].
  - rewrite sum_zero by (intros; apply H; lia). ring.
  - rewrite IHn by (try lia; intros; apply H; lia). rewrite (H n) by lia. ring.
Qed.

Lemma sum_delta_l n i f : i < n ->
  sum n (fun k => mul (if Nat.eqb i k then one else zero) (f k)) = f i.
Proof.
  intros H. rewrite (sum_one n i).
  - rewrite Nat.eqb_refl. ring.
  - exact H.
  - intros k _ Hk. destruct (Nat.eqb_spec i k); [congruence|]. ring.
Qed.

Lemma sum_delta_r n i f : i < n ->
  sum n (fun k => mul (f k) (if Nat.eqb k i then one else zero)) = f i.
Proof.
  intros H. rewrite (sum_one n i).
  - rewrite Nat.eqb_refl. ring.
  - exact H.
  - intros k _ Hk. destruct (Nat.eqb_spec k i); [congruence|]. ring.
Qed.

(** Associativity, as used everywhere below. *)
Lemma sum_assoc n m a b c :
  sum n (fun k => mul (sum m (fun l => mul (a l) (b l k))) (c k))
  = sum m (fun l => mul (a l) (sum n (fun k => mul (b l k) (c k)))).
Proof.
  transitivity (sum n (fun k => sum m (fun l => mul (mul (a l) (b l k)) (c k)))).
  - apply sum_ext. intros. rewrite <- sum_mul_r. reflexivity.
  - rewrite sum_swap. apply sum_ext. intros l _. rewrite <- sum_mul_l.
    apply sum_ext. intros. ring.
Qed.

(** ** Products *)

Lemma row_mul_length r m2 c :
  Forall (fun l => length l = c) m2 ->
  length (row_mul F zero add mul r m2 c) = c.
Proof.
  unfold row_mul. intros H.
  assert (G : forall l acc, Forall (fun tr => length (snd tr) = c) l -> length acc = c ->
     length (fold_left (fun acc (tr : F * list F) =>
        map2 (fun x y => add x (mul (fst tr) y)) acc (snd tr)) l acc) = c).
  { induction l as [|tr l IH]; intros acc Hl Ha; cbn; [exact Ha|].
    inversion Hl as [|? ? Htr Hl' E]; subst tr l0. apply IH; [exact Hl'|].
    rewrite map2_length, Ha, Htr. apply Nat.min_id. }
  apply G; [|apply repeat_length].
  rewrite Forall_forall in *. intros [t l] Hin. apply in_combine_r in Hin. apply H, Hin.
Qed.

Lemma row_mul_nth r m2 c j :
  Forall (fun l => length l = c) m2 -> j < c -> length r = length m2 ->
  nth j (row_mul F zero add mul r m2 c) zero
  = sum (length m2) (fun k => mul (nth k r zero) (entry m2 k j)).
Proof.
  intros H Hj. unfold row_mul.
  enough (G : forall r m2 acc, Forall (fun l => length l = c) m2 -> length r = length m2 ->
     length acc = c ->
     nth j (fold_left (fun acc (tr : F * list F) =>
        map2 (fun x y => add x (mul (fst tr) y)) acc (snd tr)) (combine r m2) acc) zero
     = add (nth j acc zero) (sum (length m2) (fun k => mul (nth k r zero) (entry m2 k j)))).
  { intros Hr. rewrite G by (auto using repeat_length). rewrite nth_repeat. ring. }
  clear r m2 H.
  assert (S0 : forall n f, sum (S n) f = add (f 0) (sum n (fun k => f (S k)))).
  { induction n; intros f; [cbn; ring|]. 
    change (sum (S (S n)) f) with (add (sum (S n) f) (f (S n))). rewrite IHn. cbn. ring. }
  induction r as [|t r IH]; intros [|l m2] acc H Hr Ha; try discriminate Hr.
  - cbn. ring.
  - pose proof (Forall_inv H) as Hl. pose proof (Forall_inv_tail H) as H'. cbv beta in Hl.
    cbn [combine fold_left fst snd].
    rewrite IH; [|exact H'|cbn in Hr; lia|rewrite map2_length, Ha, Hl; apply Nat.min_id].
    rewrite (nth_map2 _ _ _ j zero zero) by lia.
    cbn [length]. rewrite S0.
    change (nth 0 (t :: r) zero) with t.
    change (entry (l :: m2) 0 j) with (nth j l zero).
    rewrite (sum_ext (length m2) (fun k => mul (nth (S k) (t :: r) zero) (entry (l :: m2) (S k) j))
       (fun k => mul (nth k r zero) (entry m2 k j))) by reflexivity.
    ring.
Qed.

Lemma mat_mul_product a b r n c :
  shape a r n -> shape b n c ->
  is_product F zero add mul a b (mat_mul F zero add mul a b c) r n c.
Proof.
  intros Ha Hb. split.
  - apply shape_intro.
    + unfold mat_mul. rewrite map_length. apply Ha.
    + intros i Hi. unfold GaussModel.row, mat_mul.
      rewrite (nth_indep _ _ (row_mul F zero add mul [] b c))
        by (rewrite map_length; destruct Ha; lia).
      rewrite map_nth with (f := fun r => row_mul F zero add mul r b c).
      apply row_mul_length, Hb.
  - intros i j Hi Hj. unfold GaussSpec.entry at 1, mat_mul.
    rewrite (nth_indep _ _ (row_mul F zero add mul [] b c))
      by (rewrite map_length; destruct Ha; lia).
    rewrite map_nth with (f := fun r => row_mul F zero add mul r b c).
    pose proof (shape_row a r n i Ha Hi) as Hl. unfold GaussModel.row in Hl.
    destruct Hb as [Hb1 Hb2].
    rewrite row_mul_nth by (auto; lia). rewrite Hb1. reflexivity.
Qed.

(** ** The identity *)

Lemma unit_row_length n k : length (unit_row F zero one n k) = n.
Proof. unfold unit_row. rewrite map_length, seq_length. reflexivity. Qed.

Lemma unit_row_nth n k j : j < n ->
  nth j (unit_row F zero one n k) zero = if Nat.eqb j k then one else zero.
Proof.
  intros H. unfold unit_row.
  rewrite (nth_indep _ _ ((fun j => if Nat.eqb j k then one else zero) 0))
    by (rewrite map_length, seq_length; exact H).
  rewrite map_nth with (f := fun j => if Nat.eqb j k then one else zero).
  rewrite seq_nth by exact H. reflexivity.
Qed.

Lemma ident_row n i : i < n -> row (ident F zero one n) i = unit_row F zero one n i.
Proof.
  intros H. unfold GaussModel.row, ident.
  rewrite (nth_indep _ _ (unit_row F zero one n 0)) by (rewrite map_length, seq_length; exact H).
  rewrite map_nth, seq_nth by exact H. reflexivity.
Qed.

Lemma ident_shape n : shape (ident F zero one n) n n.
Proof.
  apply shape_intro.
  - unfold ident. rewrite map_length, seq_length. reflexivity.
  - intros i Hi. rewrite ident_row by exact Hi. apply unit_row_length.
Qed.

Lemma ident_cell n i j : i < n -> j < n ->
  cell (ident F zero one n) i j = if Nat.eqb i j then one else zero.
Proof.
  intros Hi Hj. unfold GaussModel.cell. rewrite ident_row, unit_row_nth by assumption.
  rewrite Nat.eqb_sym. reflexivity.
Qed.

(** ** The passes, cell by cell *)

Lemma pivot_range n o m : m < n -> m <= snd (pivot n o m) < n.
Proof.
  intros H. unfold GaussModel.pivot.
  assert (G : forall l s, (forall j, In j l -> m <= j < n) -> m <= snd s < n ->
     m <= snd (fold_left (pivot_step F zero better o m) l s) < n).
  { induction l as [|j l IH]; intros s Hl Hs; cbn; [exact Hs|].
    apply IH; [intros; apply Hl; right; assumption|].
    unfold pivot_step. destruct (better _ _); [cbn; apply Hl; left; reflexivity|exact Hs]. }
  apply G; [|cbn; lia]. intros j Hj. apply in_seq in Hj. lia.
Qed.

Lemma swap_shape o n c m k : shape o n c -> m < n -> k < n -> shape (swap_rows o m k) n c.
Proof.
  intros H Hm Hk. unfold GaussModel.swap_rows. destruct (Nat.eqb_spec k m); [exact H|].
  pose proof (proj1 H) as HL. apply shape_intro.
  - rewrite !set_nth_length. exact HL.
  - intros i Hi. unfold GaussModel.row at 1.
    rewrite nth_set_nth by (rewrite set_nth_length; lia).
    rewrite nth_set_nth by lia.
    destruct (Nat.eqb_spec i k); [|destruct (Nat.eqb_spec i m)];
      [| |fold (row o i)]; apply (shape_row o n c); assumption.
Qed.

(** Where the rows go. *)
Definition sw (m k i : nat) : nat := if Nat.eqb i k then m else if Nat.eqb i m then k else i.

Lemma sw_lt m k i n : m < n -> k < n -> i < n -> sw m k i < n.
Proof. intros. unfold sw. destruct (Nat.eqb _ _); [assumption|]. destruct (Nat.eqb _ _); assumption. Qed.

Lemma sw_sw m k i : sw m k (sw m k i) = i.
Proof.
  unfold sw. destruct (Nat.eqb_spec i k); [|destruct (Nat.eqb_spec i m)]; subst.
  - destruct (Nat.eqb_spec m k); [congruence|]. rewrite Nat.eqb_refl. reflexivity.
  - rewrite Nat.eqb_refl. reflexivity.
  - destruct (Nat.eqb_spec i k); [congruence|]. destruct (Nat.eqb_spec i m); congruence.
Qed.

Lemma swap_row o n m k i :
  length o = n -> m < n -> k < n -> row (swap_rows o m k) i = row o (sw m k i).
Proof.
  intros HL Hm Hk. unfold GaussModel.swap_rows, sw. destruct (Nat.eqb_spec k m) as [->|Hne].
  - destruct (Nat.eqb_spec i m); congruence.
  - unfold GaussModel.row at 1.
    rewrite nth_set_nth by (rewrite set_nth_length; lia).
    rewrite nth_set_nth by lia.
    destruct (Nat.eqb_spec i k); [reflexivity|].
    destruct (Nat.eqb_spec i m); reflexivity.
Qed.

Lemma scale_shape o n c m p : shape o n c -> m < n -> shape (scale_row o m p) n c.
Proof.
  intros H Hm. unfold GaussModel.scale_row. pose proof (proj1 H) as HL. apply shape_intro.
  - rewrite set_nth_length. exact HL.
  - intros i Hi. unfold GaussModel.row at 1. rewrite nth_set_nth by lia.
    destruct (Nat.eqb_spec i m).
    + rewrite map_length. apply (shape_row o n c); assumption.
    + apply (shape_row o n c); assumption.
Qed.

Lemma scale_cell o n c m p i j :
  shape o n c -> m < n -> i < n -> j < c ->
  cell (scale_row o m p) i j = if Nat.eqb i m then div (cell o m j) p else cell o i j.
Proof.
  intros H Hm Hi Hj. unfold GaussModel.scale_row, GaussModel.cell at 1, GaussModel.row at 1.
  rewrite nth_set_nth by (rewrite (proj1 H); lia).
  destruct (Nat.eqb_spec i m); [|reflexivity].
  rewrite (nth_indep _ _ ((fun x => div x p) zero))
    by (rewrite map_length, (shape_row o n c) by assumption; exact Hj).
  rewrite map_nth with (f := fun x => div x p). reflexivity.
Qed.

Lemma clear_shape o d n c m : shape d n c -> m < n -> shape (clear_col o d m) n c.
Proof.
  intros H Hm. unfold GaussModel.clear_col. pose proof (proj1 H) as HL. apply shape_intro.
  - rewrite mapi_length. exact HL.
  - intros i Hi. unfold GaussModel.row at 1. rewrite (nth_mapi _ _ i [] []) by lia.
    fold (row d i).
    destruct (Nat.eqb i m); [apply (shape_row d n c); assumption|].
    cbv zeta. rewrite map2_length, !(shape_row d n c) by assumption. apply Nat.min_id.
Qed.

Lemma clear_cell o d n c m i j :
  shape d n c -> m < n -> i < n -> j < c ->
  cell (clear_col o d m) i j
  = if Nat.eqb i m then cell d m j
    else sub (cell d i j) (mul (cell d m j) (cell o i m)).
Proof.
  intros H Hm Hi Hj. unfold GaussModel.clear_col. unfold GaussModel.cell at 1, GaussModel.row at 1.
  rewrite (nth_mapi _ _ i [] []) by (rewrite (proj1 H); exact Hi).
  fold (row d i). destruct (Nat.eqb_spec i m) as [->|Hne]; [reflexivity|].
  cbv zeta. rewrite (nth_map2 _ _ _ j zero zero) by (rewrite (shape_row d n c) by assumption; exact Hj).
  reflexivity.
Qed.

(** One whole pass on a matrix [d], the factors coming from [o]. *)
Definition pass (m k : nat) (p : F) (o2 d : matrix) : matrix :=
  clear_col o2 (scale_row (swap_rows d m k) m p) m.

Lemma pass_shape m k p o2 d n c :
  shape d n c -> m < n -> k < n -> shape (pass m k p o2 d) n c.
Proof. intros. apply clear_shape; [|assumption]. apply scale_shape; [|assumption]. apply swap_shape; assumption. Qed.

Lemma pass_cell m k p o2 d n c i j :
  shape d n c -> m < n -> k < n -> i < n -> j < c ->
  cell (pass m k p o2 d) i j
  = if Nat.eqb i m then div (cell d k j) p
    else sub (cell d (sw m k i) j) (mul (div (cell d k j) p) (cell o2 i m)).
Proof.
  intros H Hm Hk Hi Hj. unfold pass.
  assert (H1 : shape (swap_rows d m k) n c) by (apply swap_shape; assumption).
  assert (H2 : shape (scale_row (swap_rows d m k) m p) n c) by (apply scale_shape; assumption).
  rewrite (clear_cell o2 _ n c) by assumption.
  rewrite !(scale_cell _ n c) by assumption.
  rewrite Nat.eqb_refl. unfold GaussModel.cell. rewrite !(swap_row d n) by (assumption || apply H).
  replace (sw m k m) with k by (unfold sw; rewrite Nat.eqb_refl; destruct (Nat.eqb_spec m k); congruence).
  destruct (Nat.eqb i m); reflexivity.
Qed.

(** A linear functional of the rows. *)
Definition lin (n : nat) (x : nat -> F) (d : matrix) (i : nat) : F :=
  sum n (fun j => mul (cell d i j) (x j)).

Lemma pass_app m k p o2 d n c x i :
  shape d n c -> m < n -> k < n -> i < n ->
  lin c x (pass m k p o2 d) i
  = if Nat.eqb i m then div (lin c x d k) p
    else sub (lin c x d (sw m k i)) (mul (div (lin c x d k) p) (cell o2 i m)).
Proof.
  intros H Hm Hk Hi. unfold lin. destruct (Nat.eqb i m) eqn:E.
  - rewrite (div_mul (sum _ _) p), <- sum_mul_r. apply sum_ext. intros j Hj.
    rewrite (pass_cell m k p o2 d n c) by assumption. rewrite E, div_mul. ring.
  - rewrite (div_mul (sum _ _) p), <- !sum_mul_r, <- sum_sub. apply sum_ext. intros j Hj.
    rewrite (pass_cell m k p o2 d n c) by assumption. rewrite E, div_mul. ring.
Qed.

(** A pass loses no information. *)
Lemma pass_kernel m k p o2 d n c x :
  shape d n c -> m < n -> k < n -> p <> zero ->
  (forall i, i < n -> lin c x (pass m k p o2 d) i = zero) ->
  forall i, i < n -> lin c x d i = zero.
Proof.
  intros H Hm Hk Hp H0.
  assert (Kk : lin c x d k = zero).
  { pose proof (H0 m Hm) as E. rewrite (pass_app m k p o2 d n c) in E by assumption.
    rewrite Nat.eqb_refl, div_mul in E.
    transitivity (mul (mul (lin c x d k) (div one p)) p).
    - transitivity (mul (lin c x d k) (mul (div one p) p)); [|ring]. rewrite div_one by exact Hp. ring.
    - rewrite E. ring. }
  assert (G : forall i, i < n -> lin c x d (sw m k i) = zero).
  { intros i Hi. pose proof (H0 i Hi) as E. rewrite (pass_app m k p o2 d n c) in E by assumption.
    destruct (Nat.eqb_spec i m) as [->|Hne].
    - replace (sw m k m) with k
        by (unfold sw; rewrite Nat.eqb_refl; destruct (Nat.eqb_spec m k); congruence). exact Kk.
    - rewrite Kk, div_mul in E.
      transitivity (sub (lin c x d (sw m k i)) (mul (mul zero (div one p)) (cell o2 i m)));
        [ring|exact E]. }
  intros i Hi. rewrite <- (sw_sw m k i). apply G, sw_lt; assumption.
Qed.

(** ** The invariant of the main loop *)

Record inv (n m : nat) (a o d : matrix) : Prop := {
  inv_o : shape o n n;
  inv_d : shape d n n;
  (* d times the original is the working matrix *)
  inv_prod : forall i j, i < n -> j < n ->
    sum n (fun k => mul (cell d i k) (cell a k j)) = cell o i j;
  (* the first m columns are done *)
  inv_cols : forall i j, i < n -> j < m -> cell o i j = if Nat.eqb i j then one else zero;
  (* nothing was lost *)
  inv_ko : forall x, (forall i, i < n -> lin n x o i = zero) ->
    forall i, i < n -> lin n x a i = zero;
  inv_kd : forall x, (forall i, i < n -> lin n x d i = zero) ->
    forall i, i < n -> x i = zero
}.

Lemma inv_init n a : shape a n n -> inv n 0 a a (ident F zero one n).
Proof.
  intros H. constructor.
  - exact H.
  - apply ident_shape.
  - intros i j Hi Hj.
    rewrite (sum_ext _ _ (fun k => mul (if Nat.eqb i k then one else zero) (cell a k j))).
    + exact (sum_delta_l n i (fun k => cell a k j) Hi).
    + intros k Hk. rewrite ident_cell by assumption. reflexivity.
  - intros; lia.
  - auto.
  - intros x H0 i Hi. rewrite <- (H0 i Hi). unfold lin. symmetry.
    rewrite (sum_ext _ _ (fun k => mul (if Nat.eqb i k then one else zero) (x k))).
    + apply sum_delta_l, Hi.
    + intros k Hk. rewrite ident_cell by assumption. reflexivity.
Qed.

Lemma inv_step n m a o d k :
  shape a n n -> inv n m a o d -> m < n -> m <= k < n -> cell (swap_rows o m k) m m <> zero ->
  let p := cell (swap_rows o m k) m m in
  let o2 := scale_row (swap_rows o m k) m p in
  let d2 := scale_row (swap_rows d m k) m p in
  inv n (S m) a (clear_col o2 o2 m) (clear_col o2 d2 m).
Proof.
  intros Ha I Hm [Hk1 Hk2] Hp p o2 d2.
  change (clear_col o2 o2 m) with (pass m k p o2 o).
  change (clear_col o2 d2 m) with (pass m k p o2 d).
  pose proof (inv_o _ _ _ _ _ I) as So. pose proof (inv_d _ _ _ _ _ I) as Sd.
  assert (Ep : p = cell o k m).
  { unfold p, GaussModel.cell. rewrite (swap_row o n) by (assumption || apply So).
    unfold sw. rewrite Nat.eqb_refl. destruct (Nat.eqb_spec m k); congruence. }
  fold p in Hp.
  assert (S1 : shape (swap_rows o m k) n n) by (apply swap_shape; assumption).
  assert (Co2 : forall i, i < n -> i <> m -> cell o2 i m = cell o (sw m k i) m).
  { intros i Hi Hne. unfold o2. rewrite (scale_cell _ n n) by assumption.
    destruct (Nat.eqb_spec i m); [congruence|].
    unfold GaussModel.cell. rewrite (swap_row o n) by (assumption || apply So). reflexivity. }
  constructor.
  - apply pass_shape; assumption.
  - apply pass_shape; assumption.
  - intros i j Hi Hj.
    transitivity (lin n (fun k => cell a k j) (pass m k p o2 d) i); [reflexivity|].
    rewrite (pass_app m k p o2 d n n) by assumption.
    rewrite (pass_cell m k p o2 o n n) by assumption.
    unfold lin. rewrite !(inv_prod _ _ _ _ _ I) by (try apply sw_lt; assumption).
    reflexivity.
  - intros i j Hi Hj. rewrite (pass_cell m k p o2 o n n) by (try assumption; lia).
    destruct (Nat.eq_dec j m) as [->|Hjm].
    + rewrite <- Ep. assert (E1 : div p p = one).
      { rewrite div_mul. transitivity (mul (div one p) p); [ring|]. apply div_one, Hp. }
      rewrite E1. destruct (Nat.eqb_spec i m) as [->|Hne]; [reflexivity|].
      rewrite Co2 by assumption. ring.
    + assert (Hj' : j < m) by lia.
      rewrite (inv_cols _ _ _ _ _ I k j) by assumption.
      destruct (Nat.eqb_spec k j); [lia|].
      rewrite div_mul.
      destruct (Nat.eqb_spec i m) as [->|Hne].
      * destruct (Nat.eqb_spec m j); [lia|]. ring.
      * rewrite (inv_cols _ _ _ _ _ I (sw m k i) j) by (try apply sw_lt; assumption).
        assert (Es : Nat.eqb (sw m k i) j = Nat.eqb i j).
        { unfold sw. destruct (Nat.eqb_spec i k) as [->|].
          - destruct (Nat.eqb_spec m j), (Nat.eqb_spec k j); lia || reflexivity.
          - destruct (Nat.eqb_spec i m); [congruence|reflexivity]. }
        rewrite Es. ring.
  - intros x H0. apply (inv_ko _ _ _ _ _ I).
    apply (pass_kernel m k p o2 o n n x So Hm Hk2 Hp H0).
  - intros x H0. apply (inv_kd _ _ _ _ _ I).
    apply (pass_kernel m k p o2 d n n x Sd Hm Hk2 Hp H0).
Qed.

(** ** What the loop computes *)

Lemma reduce_some n a : shape a n n -> forall q m o d o' d',
  m + q = n -> inv n m a o d -> reduce n (seq m q) o d = (o', Some d') -> inv n n a o' d'.
Proof.
  intros Ha. induction q as [|q IH]; intros m o d o' d' Hmq I E; cbn [seq GaussModel.reduce] in E.
  - injection E as <- <-. replace n with m at 2 by lia. exact I.
  - cbv zeta in E. destruct (tiny _) eqn:T in E; [discriminate E|].
    eapply IH; [| |exact E]; [lia|].
    apply inv_step; try assumption; try lia; [|apply tiny_ne, T].
    apply pivot_range. lia.
Qed.

Lemma invert_inv n a o' d' :
  shape a n n -> invert n a = (o', Some d') -> inv n n a o' d'.
Proof.
  intros Ha E. unfold GaussModel.invert in E.
  eapply reduce_some; [exact Ha| |apply inv_init; exact Ha|exact E]. reflexivity.
Qed.

Theorem invert_correct n a o' d' :
  shape a n n -> invert n a = (o', Some d') -> is_inverse F zero one add mul a d' n.
Proof.
  intros Ha E. pose proof (invert_inv n a o' d' Ha E) as I.
  assert (L : forall i j, i < n -> j < n ->
    sum n (fun k => mul (entry d' i k) (entry a k j)) = if Nat.eqb i j then one else zero).
  { intros i j Hi Hj. transitivity (cell o' i j); [apply (inv_prod _ _ _ _ _ I); assumption|].
    apply (inv_cols _ _ _ _ _ I); assumption. }
  split; [apply (inv_d _ _ _ _ _ I)|]. split; [exact L|].
  intros i j Hi Hj.
  set (y := fun i => sub (sum n (fun k => mul (entry a i k) (entry d' k j)))
                         (if Nat.eqb i j then one else zero)).
  assert (Y : y i = zero).
  { apply (inv_kd _ _ _ _ _ I); [|exact Hi]. intros r Hr. unfold lin, y.
    rewrite (sum_ext _ _ (fun l => sub (mul (entry d' r l)
                (sum n (fun k => mul (entry a l k) (entry d' k j))))
              (mul (entry d' r l) (if Nat.eqb l j then one else zero)))).
    2:{ intros l Hl. change (cell d' r l) with (entry d' r l). ring. }
    rewrite sum_sub.
    rewrite (sum_delta_r n j (fun l => entry d' r l)) by exact Hj.
    rewrite <- (sum_assoc n n (fun l => entry d' r l) (fun l k => entry a l k) (fun k => entry d' k j)).
    rewrite (sum_ext _ _ (fun k => mul (if Nat.eqb r k then one else zero) (entry d' k j))).
    2:{ intros k Hk. rewrite L by assumption. reflexivity. }
    rewrite (sum_delta_l n r (fun k => entry d' k j)) by exact Hr. ring. }
  unfold y in Y.
  set (S := sum n _) in *. set (D := if Nat.eqb i j then one else zero) in *.
  transitivity (add (sub S D) D); [ring|]. rewrite Y. ring.
Qed.

(** The argument of a successful call ends up as the identity. *)
Lemma invert_input n a o' d' :
  shape a n n -> invert n a = (o', Some d') -> is_identity F zero one o' n.
Proof.
  intros Ha E. pose proof (invert_inv n a o' d' Ha E) as I. split.
  - apply (inv_o _ _ _ _ _ I).
  - apply (inv_cols _ _ _ _ _ I).
Qed.

(** A matrix with a left inverse is not singular. *)
Lemma inverse_regular n a d :
  is_inverse F zero one add mul a d n -> ~ singular F zero add mul a n.
Proof.
  intros (Sd & L & _) (x & Hx & i & Hi & Hne). apply Hne.
  transitivity (sum n (fun k => mul (if Nat.eqb i k then one else zero) (x k))).
  { symmetry. apply sum_delta_l, Hi. }
  rewrite (sum_ext _ _ (fun k => mul (sum n (fun l => mul (entry d i l) (entry a l k))) (x k)))
    by (intros; rewrite L by assumption; reflexivity).
  rewrite sum_assoc. apply sum_zero. intros l Hl.
  rewrite (Hx l Hl). ring.
Qed.

Theorem invert_singular n a :
  shape a n n -> singular F zero add mul a n -> snd (invert n a) = None.
Proof.
  intros Ha Hs. destruct (invert n a) as [o' [d'|]] eqn:E; [|reflexivity].
  exfalso. exact (inverse_regular n a d' (invert_correct n a o' d' Ha E) Hs).
Qed.

(** ** When the test for zero is exact, only singular matrices are refused *)

Section Exact.

Hypothesis tiny_zero : forall x, tiny x = true -> x = zero.
Hypothesis better_nonzero : forall y x, better y x = true -> y <> zero.
Hypothesis better_zero : forall y, better y zero = false -> y = zero.
Hypothesis one_zero : one <> zero.

Lemma pivot_fold o m l s :
  fst s = cell o (snd s) m ->
  let r := fold_left (pivot_step F zero better o m) l s in
  fst r = cell o (snd r) m /\
  (fst r = zero -> fst s = zero /\ forall j, In j l -> cell o j m = zero).
Proof.
  revert s. induction l as [|j l IH]; intros s Hs; cbn [fold_left]; cbv zeta.
  - split; [exact Hs|]. intros E. split; [exact E|]. intros j [].
  - assert (Ps : pivot_step F zero better o m s j
                 = if better (cell o j m) (fst s) then (cell o j m, j) else s) by reflexivity.
    rewrite Ps. clear Ps. destruct (better (cell o j m) (fst s)) eqn:B.
    + destruct (IH (cell o j m, j) eq_refl) as [G1 G2].
      split; [exact G1|].
      intros E. exfalso. destruct (G2 E) as [G3 _].
      exact (better_nonzero _ _ B G3).
    + destruct (IH s Hs) as [G1 G2]. split; [exact G1|].
      intros E. destruct (G2 E) as [G3 G4].
      split; [exact G3|]. intros j' [<-|Hj']; [|apply G4, Hj'].
      rewrite G3 in B. apply better_zero, B.
Qed.

Lemma pivot_zero n o m j :
  m < n -> cell o (snd (pivot n o m)) m = zero -> m <= j < n -> cell o j m = zero.
Proof.
  intros Hm E Hj. destruct (pivot_fold o m (seq (S m) (n - S m)) (cell o m m, m) eq_refl) as [G1 G2].
  fold (pivot n o m) in G1, G2. rewrite <- G1 in E. destruct (G2 E) as [H1 H2].
  destruct (Nat.eq_dec j m) as [->|]; [exact H1|]. apply H2, in_seq. lia.
Qed.

Lemma reduce_none n a : shape a n n -> forall q m o d o',
  m + q = n -> inv n m a o d -> reduce n (seq m q) o d = (o', None) -> singular F zero add mul a n.
Proof.
  intros Ha. induction q as [|q IH]; intros m o d o' Hmq I E; cbn [seq GaussModel.reduce] in E.
  - discriminate E.
  - assert (Hm : m < n) by lia.
    pose proof (pivot_range n o m Hm) as Hk. pose proof (inv_o _ _ _ _ _ I) as So.
    cbv zeta in E. destruct (tiny _) eqn:T in E.
    + apply tiny_zero in T. unfold GaussModel.cell in T.
      rewrite (swap_row o n) in T by (lia || apply So).
      replace (sw m (snd (pivot n o m)) m) with (snd (pivot n o m)) in T.
      2:{ unfold sw. rewrite Nat.eqb_refl. destruct (Nat.eqb_spec m (snd (pivot n o m))); congruence. }
      assert (Z : forall j, m <= j < n -> cell o j m = zero)
        by (intros j Hj; apply (pivot_zero n o m j Hm T Hj)).
      exists (fun j => if Nat.eqb j m then one else if Nat.ltb j m then opp (cell o j m) else zero).
      split.
      * unfold in_kernel. apply (inv_ko _ _ _ _ _ I). intros i Hi. unfold lin.
        assert (T2 : forall f : nat -> F, (forall j, m < j -> j < n -> f j = zero) ->
                 sum n f = add (sum m f) (f m)).
        { intros f Hf. replace n with (S m + q) by lia.
          clear - ring_F Hf Hmq. assert (Hq : S m + q <= n) by lia. clear Hmq. induction q as [|q IH].
          - rewrite Nat.add_0_r. reflexivity.
          - rewrite Nat.add_succ_r. cbn [GaussSpec.sum]. rewrite IH by lia.
            rewrite (Hf (S m + q)) by lia. cbn [GaussSpec.sum Nat.add]. ring. }
        rewrite T2.
        2:{ intros j H1 H2. destruct (Nat.eqb_spec j m); [lia|].
            destruct (Nat.ltb_spec j m); [lia|]. ring. }
        rewrite Nat.eqb_refl.
        destruct (Nat.lt_ge_cases i m) as [Him|Him].
        -- rewrite (sum_one m i); [|exact Him|].
           ++ rewrite (inv_cols _ _ _ _ _ I i i) by assumption. rewrite Nat.eqb_refl.
              destruct (Nat.eqb_spec i m); [lia|]. destruct (Nat.ltb_spec i m); [|lia]. ring.
           ++ intros j Hj Hne. rewrite (inv_cols _ _ _ _ _ I i j) by assumption.
              destruct (Nat.eqb_spec i j); [congruence|]. ring.
        -- rewrite Z by lia. rewrite sum_zero; [ring|].
           intros j Hj. rewrite (inv_cols _ _ _ _ _ I i j) by assumption.
           destruct (Nat.eqb_spec i j); [lia|]. ring.
      * exists m. split; [exact Hm|]. rewrite Nat.eqb_refl. exact one_zero.
    + eapply IH; [| |exact E]; [lia|].
      apply inv_step; try assumption. apply tiny_ne, T.
Qed.

Theorem invert_none n a :
  shape a n n -> snd (invert n a) = None -> singular F zero add mul a n.
Proof.
  intros Ha E. destruct (invert n a) as [o' d'] eqn:E'. cbn in E. subst d'.
  unfold GaussModel.invert in E'. eapply reduce_none; [exact Ha| |apply inv_init; exact Ha|exact E'].
  reflexivity.
Qed.

End Exact.

End Proofs.

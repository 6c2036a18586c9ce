(** Shared helpers: list update, sub-lists, byte lists. *)
Require Import List Arith NArith ZArith Lia Bool.
Require Import ZifyBool ZifyNat ZifyN.
Import ListNotations.
Ltac Zify.zify_post_hook ::= Z.div_mod_to_equations.

(** [upd l i v] replaces the element at index [i]; unchanged when out of range
    (every model function guards or returns an explicit error first). *)
Fixpoint upd {A} (l : list A) (i : nat) (v : A) : list A :=
  match l, i with
  | [], _ => []
  | _ :: t, O => v :: t
  | h :: t, S j => h :: upd t j v
  end.

(** A store through a pointer: [None] when the index is outside the object. *)
Definition store {A} (l : list A) (i : nat) (v : A) : option (list A) :=
  if i <? length l then Some (upd l i v) else None.

Lemma upd_length {A} (l : list A) i v : length (upd l i v) = length l.
Proof. revert i; induction l as [|h t IH]; intros [|i]; cbn; auto. Qed.

Lemma nth_error_upd {A} (l : list A) i j v :
  nth_error (upd l i v) j =
  if Nat.eqb i j then (if i <? length l then Some v else None) else nth_error l j.
Proof.
  revert i j; induction l as [|h t IH]; intros i j.
  - cbn. destruct (Nat.eqb i j); destruct j; reflexivity.
  - destruct i as [|i], j as [|j]; cbn; auto.
    rewrite IH. destruct (Nat.eqb i j); auto.
Qed.

Lemma nth_error_upd_eq {A} (l : list A) i v :
  i < length l -> nth_error (upd l i v) i = Some v.
Proof.
  intros H. rewrite nth_error_upd, Nat.eqb_refl.
  destruct (Nat.ltb_spec i (length l)); [reflexivity|lia].
Qed.

Lemma nth_error_upd_neq {A} (l : list A) i j v :
  i <> j -> nth_error (upd l i v) j = nth_error l j.
Proof.
  intros H. rewrite nth_error_upd. destruct (Nat.eqb_spec i j); [lia|reflexivity].
Qed.

Lemma nth_upd_eq {A} (l : list A) i v d : i < length l -> nth i (upd l i v) d = v.
Proof.
  intros H. apply nth_error_nth. apply nth_error_upd_eq; auto.
Qed.

Lemma nth_upd_neq {A} (l : list A) i j v d : i <> j -> nth j (upd l i v) d = nth j l d.
Proof.
  revert i j; induction l as [|h t IH]; intros [|i] [|j] H; cbn; auto; try lia.
  all: try (apply IH; lia).
Qed.

Lemma nth_error_ext {A} (l1 l2 : list A) :
  (forall i, nth_error l1 i = nth_error l2 i) -> l1 = l2.
Proof.
  revert l2; induction l1 as [|a l1 IH]; intros [|b l2] H; auto.
  - specialize (H 0); discriminate.
  - specialize (H 0); discriminate.
  - pose proof (H 0) as H0; cbn in H0; injection H0 as ->. f_equal.
    apply IH. intros i. exact (H (S i)).
Qed.

Lemma upd_app1 {A} (l1 l2 : list A) i v :
  i < length l1 -> upd (l1 ++ l2) i v = upd l1 i v ++ l2.
Proof.
  revert i; induction l1 as [|h t IH]; intros [|i] H; cbn in *; auto; try lia.
  f_equal. apply IH; lia.
Qed.

Lemma upd_app2 {A} (l1 l2 : list A) i v :
  length l1 <= i -> upd (l1 ++ l2) i v = l1 ++ upd l2 (i - length l1) v.
Proof.
  revert i; induction l1 as [|h t IH]; intros i H; cbn in *.
  - rewrite Nat.sub_0_r; auto.
  - destruct i as [|i]; [lia|]. cbn. f_equal. apply IH; lia.
Qed.

Lemma upd_nth_error_same {A} (l : list A) i v :
  nth_error l i = Some v -> upd l i v = l.
Proof.
  revert i; induction l as [|h t IH]; intros [|i] H; cbn in *; auto; try congruence.
  f_equal; auto.
Qed.

(** Drop the element at index [i]. *)
Fixpoint remove_nth {A} (i : nat) (l : list A) : list A :=
  match l, i with
  | [], _ => []
  | _ :: t, O => t
  | h :: t, S j => h :: remove_nth j t
  end.

Lemma remove_nth_length {A} i (l : list A) :
  i < length l -> length (remove_nth i l) = length l - 1.
Proof.
  revert i; induction l as [|h t IH]; intros [|i] H; cbn in *; try lia.
  rewrite IH by lia. lia.
Qed.

Lemma nth_error_remove_nth {A} i j (l : list A) :
  nth_error (remove_nth i l) j = if j <? i then nth_error l j else nth_error l (S j).
Proof.
  revert i j; induction l as [|h t IH]; intros i j.
  - cbn [remove_nth]. destruct i, (j <? _), j; reflexivity.
  - destruct i as [|i]; cbn [remove_nth].
    + destruct (Nat.ltb_spec j 0); [lia|reflexivity].
    + destruct j as [|j]; cbn [nth_error].
      * destruct (Nat.ltb_spec 0 (S i)); [reflexivity|lia].
      * rewrite IH. destruct (Nat.ltb_spec j i), (Nat.ltb_spec (S j) (S i)); try lia; reflexivity.
Qed.

Lemma nth_error_app_cases {A} (l1 l2 : list A) i :
  nth_error (l1 ++ l2) i =
  if i <? length l1 then nth_error l1 i else nth_error l2 (i - length l1).
Proof.
  destruct (Nat.ltb_spec i (length l1)).
  - apply nth_error_app1; auto.
  - apply nth_error_app2; auto.
Qed.

(** Bytes are [N] below 256. *)
Definition is_byte (b : N) : Prop := (b < 256)%N.
Definition bytes (l : list N) : Prop := Forall is_byte l.

(** Option monad used for "undefined behaviour = None". *)
Definition obind {A B} (x : option A) (f : A -> option B) : option B :=
  match x with Some a => f a | None => None end.
Notation "x <- e1 ;; e2" := (obind e1 (fun x => e2))
  (at level 61, e1 at next level, right associativity).

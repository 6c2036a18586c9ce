(** * What a product and an inverse are

    Textbook definitions over an arbitrary element type: sums of products,
    read off entry by entry. *)

From Coq Require Import List Arith.
Import ListNotations.

Section GaussSpec.

Variable F : Type.
Variables zero one : F.
Variables add mul : F -> F -> F.

(** [f 0 + ... + f (n-1)] *)
Fixpoint sum (n : nat) (f : nat -> F) : F :=
  match n with
  | O => zero
  | S k => add (sum k f) (f k)
  end.

(** The entry in row [i] and column [j]. *)
Definition entry (m : list (list F)) (i j : nat) : F := nth j (nth i m []) zero.

(** A table of [r] rows, each of [c] entries. *)
Definition shape (m : list (list F)) (r c : nat) : Prop :=
  length m = r /\ Forall (fun l => length l = c) m.

(** [p] is the product of [a] ([r] by [n]) and [b] ([n] by [c]). *)
Definition is_product (a b p : list (list F)) (r n c : nat) : Prop :=
  shape p r c /\
  forall i j, i < r -> j < c ->
  entry p i j = sum n (fun k => mul (entry a i k) (entry b k j)).

(** [m] is the identity of size [n]. *)
Definition is_identity (m : list (list F)) (n : nat) : Prop :=
  shape m n n /\
  forall i j, i < n -> j < n -> entry m i j = if Nat.eqb i j then one else zero.

(** [x] is sent to zero by [m]. *)
Definition in_kernel (m : list (list F)) (n : nat) (x : nat -> F) : Prop :=
  forall i, i < n -> sum n (fun k => mul (entry m i k) (x k)) = zero.

(** [m] sends a vector other than zero to zero. *)
Definition singular (m : list (list F)) (n : nat) : Prop :=
  exists x, in_kernel m n x /\ exists i, i < n /\ x i <> zero.

(** [d] undoes [a] on both sides. *)
Definition is_inverse (a d : list (list F)) (n : nat) : Prop :=
  shape d n n /\
  (forall i j, i < n -> j < n ->
   sum n (fun k => mul (entry d i k) (entry a k j)) = if Nat.eqb i j then one else zero) /\
  (forall i j, i < n -> j < n ->
   sum n (fun k => mul (entry a i k) (entry d k j)) = if Nat.eqb i j then one else zero).

End GaussSpec.

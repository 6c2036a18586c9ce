(** Finite sweeps over byte values, lifted to universally quantified statements. *)
Require Import List Arith NArith Lia Bool.
Import ListNotations.

Definition nrange (n : nat) : list N := map N.of_nat (seq 0 n).

Lemma nrange_in n a : (a < N.of_nat n)%N -> In a (nrange n).
Proof.
  intros H. unfold nrange. apply in_map_iff. exists (N.to_nat a). split; [lia|].
  apply in_seq. lia.
Qed.

Lemma sweep1 n (f : N -> bool) :
  forallb f (nrange n) = true -> forall a, (a < N.of_nat n)%N -> f a = true.
Proof.
  intros H a Ha. rewrite forallb_forall in H. apply H. apply nrange_in; auto.
Qed.

Lemma sweep2 n m (f : N -> N -> bool) :
  forallb (fun a => forallb (f a) (nrange m)) (nrange n) = true ->
  forall a b, (a < N.of_nat n)%N -> (b < N.of_nat m)%N -> f a b = true.
Proof.
  intros H a b Ha Hb. rewrite forallb_forall in H. specialize (H a (nrange_in n a Ha)).
  rewrite forallb_forall in H. apply H. apply nrange_in; auto.
Qed.

(** Property C09: the Fibonacci heap is a priority queue. *)
Require Import List Arith NArith Bool Permutation Sorted Lia.
Require Import Verif.Base Verif.FheapModel Verif.FheapSpec Verif.FheapProofs.
Import ListNotations.
Open Scope N_scope.

(** Whatever a caller does that keeps to the rules of [legal], no operation reaches undefined behaviour (in particular the table of 65 degrees is
    never overrun), and every answer is one a priority queue may give: the minimum and the extracted node have a least key, lowering a key is
    refused exactly when the new key is above the old one, deleting removes that node, the count is right, and freeing releases every node once in
    the order of the keys. The number of operations is below the smallest number of nodes a tree with 65 children of the root can have. *)
Theorem fheap_is_priority_queue : forall (K : Type) (lt : K -> K -> bool) (min_val : K) (ops : list (op K)),
  strict_weak lt -> N.of_nat (length ops) < 44945570212853 -> safe lt min_val [] ops ->
  exists h outs, run lt min_val heap_new ops = Some (h, outs) /\ accepts lt [] ops outs.
Proof. intros K lt mv ops H Hs Sf. exact (run_ok K lt H mv ops Hs Sf). Qed.
Print Assumptions fheap_is_priority_queue.

(** A history with extraction, lowering of a key below its parent's, deletion and release meets the hypotheses. *)
Definition fh_ops : list (op N) :=
  [FInsert 1 50; FInsert 2 30; FInsert 3 40; FInsert 4 60; FInsert 5 70; FExtract; FDecrease 5 10; FDecrease 1 90; FMinimum; FDelete 4; FCount; FFree; FMinimum].
Lemma n_strict_weak : strict_weak N.ltb.
Proof. constructor; intros; rewrite ?N.ltb_lt, ?N.ltb_ge in *; lia. Qed.
Example fheap_ex : strict_weak N.ltb /\ N.of_nat (length fh_ops) < 44945570212853 /\ safe N.ltb 0 [] fh_ops.
Proof.
  split; [exact n_strict_weak|]. split; [reflexivity|]. unfold fh_ops.
  repeat match goal with
  | |- safe _ _ _ (FInsert _ _ :: _) => split; [cbn; intuition discriminate | intros x l' A; inversion A; subst; clear A; cbn [app]]
  end.
  split; [exact I|]. intros x l' A. inversion A as [| | ? p (Ip & Mp) | | | | | | |]; subst; clear A.
  pose proof (Mp (2, 30)) as M2. cbn in Ip, M2. destruct Ip as [<- | [<- | [<- | [<- | [<- | []]]]]]; try (specialize (M2 (or_intror (or_introl eq_refl))); discriminate). clear Mp M2. cbn [fst without filter N.eqb Pos.eqb negb].
  split; [cbn; tauto|]. intros x l' A. inversion A; subst; clear A; [|match goal with H : In _ _, H' : _ = true |- _ => cbn in H; destruct H as [H | [H | [H | [H | []]]]]; inversion H; subst; discriminate end]. cbn [with_key map fst N.eqb Pos.eqb].
  split; [cbn; tauto|]. intros x l' A. inversion A; subst; clear A; [match goal with H : In _ _, H' : _ = false |- _ => cbn in H; destruct H as [H | [H | [H | [H | []]]]]; inversion H; subst; discriminate end|].
  split; [exact I|]. intros x l' A. inversion A; subst; clear A.
  split. { split; [exists 60; split; [cbn; tauto | reflexivity]|]. intros b k Ik _. cbn in Ik. destruct Ik as [H1 | [H1 | [H1 | [H1 | []]]]]; injection H1 as <- <-; reflexivity. }
  intros x l' A. inversion A; subst; clear A. split; [exact I|]. intros x l' A. inversion A; subst; clear A. split; [exact I|]. intros x l' A. inversion A; subst; clear A. split; [exact I | intros; exact I].
Qed.
Example fheap_ex_run : option_map snd (run N.ltb 0 heap_new fh_ops) =
  Some [ODone; ODone; ODone; ODone; ODone; OGot (Some (2, 30)); OStatus true; OStatus false; OGot (Some (5, 10)); ODone; ONum 3; OAll [(5, 10); (3, 40); (1, 50)]; OGot None].
Proof. vm_compute. reflexivity. Qed.

(** Deleting while another key is equal to the least value (a lower bound of the keys, which is what the interface asks for) removes the other
    node: here node 2 is deleted and is the minimum afterwards, with the least value as its key, and the two answers fit no content of a queue. *)
Theorem fheap_delete_removes_named_refuted :
  let ops := [FInsert 1 0; FInsert 2 5; FDelete 2; FMinimum] in
  exists h, run N.ltb 0 heap_new ops = Some (h, [ODone; ODone; ODone; OGot (Some (2, 0))]) /\ ~ accepts N.ltb [] ops [ODone; ODone; ODone; OGot (Some (2, 0))].
Proof.
  intros ops. assert (E : option_map snd (run N.ltb 0 heap_new ops) = Some [ODone; ODone; ODone; OGot (Some (2, 0))]) by (vm_compute; reflexivity).
  destruct (run N.ltb 0 heap_new ops) as [(h & outs) |]; [|discriminate]. injection E as ->. exists h. split; [reflexivity|].
  intros (l1 & A1 & l2 & A2 & l3 & A3 & l4 & A4 & _). inversion A1; subst. inversion A2; subst. inversion A3; subst. inversion A4 as [| | | | ? ? (Ip & _) | | | | |]; subst. cbn in Ip. destruct Ip as [X | []]; discriminate.
Qed.
Print Assumptions fheap_delete_removes_named_refuted.

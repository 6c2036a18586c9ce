(** C06, C07 and C42: the red-black tree. *)
Require Import List Arith NArith ZArith Bool Lia Sorting.Permutation.
Require Import Verif.Base Verif.ChainModel Verif.RbModel Verif.RbSpec Verif.RbProofs.
Import ListNotations.
Open Scope N_scope.

(** C06: for any comparison handler that is a total preorder and any legal history, no call runs into undefined behaviour or an endless loop
    and every answer is one the sorted sequence of nodes may give. *)
Theorem rbtree_is_sorted_sequence :
  forall (K : Type) (cmp : K -> K -> Z) (t0 : rbtree K) (ops : list (rop K)), preorder cmp -> legal_run cmp (mkS [] []) ops ->
    exists t outs s, r_run cmp (rb_new t0) ops = Some (t, outs) /\ spec_run cmp (mkS [] []) ops outs s.
Proof. exact refines_ok. Qed.
Print Assumptions rbtree_is_sorted_sequence.

(** C07: after any legal history the links form a red-black tree of exactly the nodes that should be in it, its height is at most twice the
    binary logarithm of the number of nodes plus one, and a search limited to that many turns gives the full answer. *)
Theorem rbtree_stays_balanced :
  forall (K : Type) (cmp : K -> K -> Z) (t0 : rbtree K) (ops : list (rop K)), preorder cmp -> legal_run cmp (mkS [] []) ops ->
    exists t outs tr h, r_run cmp (rb_new t0) ops = Some (t, outs) /\
      rep (lnk t) 0 (root (lnk t)) tr /\ rbt false h tr /\
      inorder tr = map fst (sorted (fold_left (spec_next cmp) ops (mkS [] []))) /\
      (height tr <= 2 * Nat.log2 (length (inorder tr) + 1))%nat /\
      forall k fuel, (2 * Nat.log2 (length (inorder tr) + 1) < fuel)%nat -> search cmp fuel (lnk t) (key t) k (root (lnk t)) = rb_search cmp t k.
Proof. exact balance_ok. Qed.
Print Assumptions rbtree_stays_balanced.

(** A history with equal keys, deletions of inner nodes and of the minimum, and an iteration whose handler deletes the node it is given and
    the next one. *)
Definition t_any : rbtree Z := mkT (mkM (fun _ => 7) (fun _ => 7) (fun _ => 7) (fun _ => true) 7) (fun _ => 0%Z) 7 (fun _ => None) None None None 7 true.
Definition history : list (rop Z) :=
  [RInsert 1 50%Z; RInsert 2 20%Z; RInsert 3 70%Z; RInsert 4 20%Z; RInsert 5 60%Z; RInsert 6 10%Z; RInsert 7 65%Z; RInsert 8 5%Z; RMin; RCount;
   RSearch 65%Z; RSearch 66%Z; RDelete 3; RSuccessor 2; RSuccessor 5; RDelete 8; RMin; RDelete 1; RSearch 20%Z;
   RIterate (fun a => if (a =? 2)%N then [2; 5]%N else []) (fun _ => false); RMin; RSuccessor 6; RCount; RReset; RMin; RInsert 2 1%Z; RMin].
Example rbtree_meets : preorder Z.sub /\ legal_run Z.sub (mkS [] []) history /\
  option_map snd (r_run Z.sub (rb_new t_any) history) =
    Some [ONone; ONone; ONone; ONone; ONone; ONone; ONone; ONone; ONode 8; ONum 8; ONode 7; ONode 0; ONone; ONode 4; ONode 7; ONone; ONode 6; ONone;
          ONode 2; ONodes [2; 4; 6; 7] true; ONode 6; ONode 4; ONum 3; ONone; ONode 0; ONone; ONode 2].
Proof.
  split; [split; intros; lia|]. split; [|vm_compute; reflexivity].
  vm_compute. repeat split; try (intros; discriminate); try (intros H; repeat (destruct H as [H|H]; [discriminate|]); exact H); try tauto;
    repeat constructor; try (intros H; repeat (destruct H as [H|H]; [discriminate|]); exact H); intros x H; cbn in *; tauto.
Qed.

(** C42: an iteration whose handler deletes nothing meets every node exactly once, in the order of insertion. (With deletions: the
    clause [sp_iterate] of the specification, covered by [rbtree_is_sorted_sequence].) *)
Theorem rbtree_iteration_partial :
  forall (K : Type) (cmp : K -> K -> Z) (t0 : rbtree K) (ops : list (rop K)), preorder cmp -> legal_run cmp (mkS [] []) ops ->
    exists t outs, r_run cmp (rb_new t0) (ops ++ [RIterate (fun _ => []) (fun _ => false)]) = Some (t, outs) /\
      let s := fold_left (spec_next cmp) ops (mkS [] []) in
      last outs ONone = ONodes (order s) true /\ NoDup (order s) /\ Permutation (order s) (map fst (sorted s)).
Proof. exact iteration_ok. Qed.
Print Assumptions rbtree_iteration_partial.

(** Missing: histories in which a handler ended an iteration early. Then the full statement is false: after an aborted iteration, deleting the
    node it stopped at makes the next iteration meet the first node twice. *)
Theorem rbtree_iteration_refuted :
  exists ops : list (rop Z), option_map snd (r_run Z.sub (rb_new t_any) ops) =
    Some [ONone; ONone; ONone; ONodes [1; 2] false; ONone; ONodes [1; 1; 3] true].
Proof.
  exists [RInsert 1 10%Z; RInsert 2 20%Z; RInsert 3 30%Z; RIterate (fun _ => []) (fun a => a =? 2); RDelete 2; RIterate (fun _ => []) (fun _ => false)].
  vm_compute. reflexivity.
Qed.
Print Assumptions rbtree_iteration_refuted.

(** C05 (intrusive lists) and C03 (stacks). *)
Require Import List Arith NArith Bool.
Require Import Verif.Base Verif.ChainModel Verif.ChainSpec Verif.ChainProofs.
Import ListNotations.

(** C05: any legal history over any number of lists sharing one memory runs without undefined behaviour; afterwards each
    list, walked forward, is its abstract sequence, walked backward it is the reverse; the payload of every node is
    unchanged and nodes the history does not name are untouched. *)
Theorem lists_are_sequences :
  forall (D : Type) (st : lists D) ops,
    (forall s, sent st s = (None, None)) -> l_legal_run (fun _ => []) ops ->
    (forall o, In o ops -> mem st (op_node o) <> None) ->
    exists st', l_run st ops = Some st' /\
      (forall s, let l := l_spec_run (fun _ => []) ops s in
        option_map (map fst) (walk_next (length l) (mem st') (fst (sent st' s))) = Some l /\
        option_map (map fst) (walk_prev (length l) (mem st') (snd (sent st' s))) = Some (rev l)) /\
      (forall a, option_map dat (mem st' a) = option_map dat (mem st a)) /\
      (forall a, (forall o, In o ops -> a <> op_node o) -> mem st' a = mem st a).
Proof. exact (@lists_ok). Qed.
Print Assumptions lists_are_sequences.

Example lists_meets :
  let st := mkL (fun a => Some (mkC a (Some 9%N) (Some 8%N))) (fun _ => (None, None)) in
  let ops := [LAdd 0 1; LAdd 1 4; LAdd 0 2; LAdd 0 3; LRemove 0 2; LAdd 1 2; LRemove 0 1; LAdd 0 1]%N in
  (forall s, sent st s = (None, None)) /\ l_legal_run (fun _ => []) ops /\
  l_spec_run (fun _ => []) ops 0 = [3; 1]%N /\ l_spec_run (fun _ => []) ops 1 = [4; 2]%N.
Proof.
  split; [reflexivity|]. split; [|split; reflexivity].
  cbn. unfold upd_at. repeat split; try (intros [|[|s]]; cbn; intuition discriminate); cbn; auto.
Qed.

(** Removing a node that is not in the list (a second remove) is outside the contract: it dereferences NULL. *)
Example list_double_remove_is_undefined :
  let st := mkL (fun a => Some (mkC a None None)) (fun _ => (None, None)) in
  l_run st [LAdd 0 1; LAdd 0 2; LRemove 0 1; LRemove 0 1]%N = None.
Proof. reflexivity. Qed.

(** C03: every program over any number of stacks, with any malloc that returns unused addresses or fails at any point and
    any copy handler, runs without undefined behaviour and answers as abstract stacks do. *)
Theorem stacks_are_lifo :
  forall (D : Type) (copy : D -> option D) (alloc : nat -> nat -> heap D -> option N) (h0 : heap D) (ops : list (sop D)),
    (forall n k h a, alloc n k h = Some a -> h a = None) ->
    exists w outs, s_run copy alloc 0 (mkW h0 (fun _ => st_empty)) ops = Some (w, outs) /\
      s_spec_run copy (fun _ => []) ops outs.
Proof. exact (@stacks_ok). Qed.
Print Assumptions stacks_are_lifo.

(** The addresses an allocator that never reuses an address hands out: operation, call. *)
Example stacks_meets :
  let alloc n k (h : heap nat) := let a := N.of_nat (100 * n + k) in match h a with None => Some a | Some _ => None end in
  (forall n k h a, alloc n k h = Some a -> h a = None) /\
  option_map snd (s_run Some alloc 0 (mkW (fun _ => None) (fun _ => st_empty))
    [SPush 0 5; SPush 0 6; SDup 0 1; SPop 0; SPush 1 7; SIterate 0; SIterate 1; SCount 1; SDestroy 1; SEmpty 1; SPop 1])
  = Some [SoStatus true; SoStatus true; SoDup true []; SoPtr (Some 6); SoStatus true; SoList [5]; SoList [7; 6; 5];
          SoNum 3%N; SoFreed [5; 6; 7]; SoBool true; SoPtr None].
Proof.
  split; [|vm_compute; reflexivity].
  intros n k h a. cbn zeta. destruct (h (N.of_nat (100 * n + k))) eqn:E; [discriminate|]. congruence.
Qed.

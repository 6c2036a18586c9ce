(** C01, C02: the bounded queue. *)
Require Import List Arith.
Require Import Verif.Base Verif.QueueModel Verif.QueueSpec Verif.QueueProofs.
Import ListNotations.

(** C01. For every capacity and every history of append/get/remove/search/iterate/count the ring behaves exactly as a
    bounded FIFO list, never touches memory outside the ring, and destroy releases exactly the elements still queued. *)
Theorem queue_is_bounded_fifo :
  forall (V : Type) (null : V) (cap : nat) (ops : list (qop V)),
    Forall no_free_index ops ->
    exists q, q_run null (q_init null cap) ops = Some (q, snd (spec_run null cap [] ops)) /\
              q_destroy q = Some (fst (spec_run null cap [] ops)).
Proof. exact queue_fifo_lemma. Qed.
Print Assumptions queue_is_bounded_fifo.

Example queue_is_bounded_fifo_meets :
  let ops := [QAppend 1; QAppend 2; QAppend 3; QGet; QRemove; QAppend 4; QSearch 1; QIterate] in
  Forall no_free_index ops /\
  snd (spec_run 0 2 [] ops) =
  [OStatus true; OStatus true; OStatus false; OPtr 1; OUnit; OStatus true; OPtr 4; OList [2; 4]].
Proof. split; [repeat constructor | reflexivity]. Qed.

(** C02, the part that holds: after any history, removal by index removes exactly that element, frees exactly that
    pointer, and leaves the others in order, as long as nothing is appended afterwards. *)
Theorem queue_free_index_partial :
  forall (V : Type) (null : V) (cap : nat) (ops1 ops2 : list (qop V)),
    Forall no_free_index ops1 -> Forall no_append ops2 ->
    exists q, q_run null (q_init null cap) (ops1 ++ ops2) = Some (q, snd (spec_run null cap [] (ops1 ++ ops2))) /\
              q_destroy q = Some (fst (spec_run null cap [] (ops1 ++ ops2))).
Proof. exact queue_free_index_lemma. Qed.
Print Assumptions queue_free_index_partial.

Example queue_free_index_partial_meets :
  let ops1 := [QAppend 1; QRemove; QAppend 2; QAppend 3; QAppend 4] in
  let ops2 := [QFreeIndex 1; QIterate; QFreeIndex 0; QIterate] in
  Forall no_free_index ops1 /\ Forall no_append ops2 /\
  snd (spec_run 0 3 [] (ops1 ++ ops2)) =
  [OStatus true; OUnit; OStatus true; OStatus true; OStatus true;
   OFreed (Some 3); OList [2; 4]; OFreed (Some 2); OList [4]].
Proof. repeat split; repeat constructor. Qed.

(** C02, the full statement (no restriction on appends after a removal by index) is false of the code: the shifting
    loop runs once too often, the tail is left one slot too far, and the next append is written behind a stale slot.
    Witness: capacity 3, append 1, append 2, remove index 0, append 3: iterating yields 2 and a stale NULL slot instead
    of 2 and 3. *)
Theorem queue_free_index_refuted :
  exists (cap : nat) (ops : list (qop nat)),
    option_map snd (q_run 0 (q_init 0 cap) ops) <> Some (snd (spec_run 0 cap [] ops)).
Proof.
  exists 3, [QAppend 1; QAppend 2; QFreeIndex 0; QAppend 3; QIterate].
  vm_compute. discriminate.
Qed.
Print Assumptions queue_free_index_refuted.

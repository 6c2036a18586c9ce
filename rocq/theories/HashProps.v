(** C08: a hash table is a collection of key and value pairs, whatever the hash function, the table length, the growing and shrinking and the
    failing allocations. *)
Require Import List Arith NArith Bool.
Require Import Verif.Base Verif.HashModel Verif.HashSpec Verif.HashProofs.
Import ListNotations.
Open Scope N_scope.

(** Every program of operations (fewer than 2^32 of them) runs without touching memory it must not touch and answers as the list of live pairs does. *)
Theorem hash_table_is_a_map : forall (K V : Type) (hash : N -> K -> N) (cmp : K -> K -> bool) (prime : N -> N) (base : N) (grows calc_prime : bool)
    (h : table K V) (ops : list (op K V)),
  handlers K hash cmp -> (forall n, 0 < prime n < 2 ^ 32) -> base < 2 ^ 32 ->
  hash_init K V prime base grows calc_prime true = Some h -> legal cmp grows [] ops -> N.of_nat (length ops) < 2 ^ 32 ->
  exists h' outs, run K V hash cmp prime h ops = Some (h', outs) /\ Forall2 same_out outs (snd (srun cmp [] ops)).
Proof. intros K V hash cmp prime base grows calc_prime h ops Hh Hp. exact (hash_ok K V hash cmp prime Hh Hp base grows calc_prime h ops). Qed.

(** Concrete tables: keys and values are numbers, the hash is the remainder, every third argument plays no part. *)
Definition modhash (len k : N) : N := k mod len.
Definition seven (n : N) : N := 7.
Definition ins (k v : N) : op N N := HInsert N N k v true true true.
Definition prog : list (op N N) :=
  [ins 1 10; ins 9 90; ins 1 11; ins 17 170; HInsert N N 4 40 false false false; ins 3 30; ins 2 20; ins 25 250; ins 33 1; ins 41 2; ins 49 3;
   ins 57 4; ins 65 5; ins 73 6; HSearch N N 1; HSearchAll N N 1; HUpdate N N 9 91 true true true; HChange N N 3 31; HRemove N N 1 FKV; HSearch N N 1;
   HExist N N 4; HCount N N; HIterate N N [(None, false); (None, true)]; HReset N N FKey; HCount N N].
Lemma modhash_handlers : handlers N modhash N.eqb.
Proof.
  constructor.
  - intros len k H. apply N.mod_upper_bound. destruct len; discriminate.
  - intros len k k' H. apply N.eqb_eq in H. subst; reflexivity.
  - apply N.eqb_refl.
  - intros k k'. apply N.eqb_sym.
  - intros a b c H1 H2. apply N.eqb_eq in H1, H2. subst. apply N.eqb_refl.
Qed.
Example hash_meets : exists h, hash_init N N seven 8 true false true = Some h /\ handlers N modhash N.eqb /\ (forall n, 0 < seven n < 2 ^ 32) /\ legal N.eqb true [] prog /\
  exists h', run N N modhash N.eqb seven h prog = Some (h', snd (srun N.eqb [] (firstn 23 prog)) ++ [OFreedAll N N (map inl [25; 65; 1; 41; 17; 2; 57; 3; 33; 73; 9; 49]); ONum N N 0]).
Proof.
  eexists. split; [reflexivity|]. split; [exact modhash_handlers|]. split; [intros; split; reflexivity|]. split.
  - cbn [legal prog sstep fst op_ok]. repeat split; try (right; discriminate); repeat constructor.
  - eexists. vm_compute. reflexivity.
Qed.
(** A table of fixed length whose handler removes while iterating. *)
Example hash_fixed_meets : exists h, hash_init N N seven 3 false false true = Some h /\
  let ops := [ins 1 10; ins 4 40; ins 1 11; ins 7 70; HUpdate N N 5 50 true true true; HIterate N N [(None, false); (Some FKV, false); (Some FVal, false)];
              HSearchAll N N 1; HCount N N] in
  legal N.eqb false [] ops /\
  exists h', run N N modhash N.eqb seven h ops = Some (h', [OStatus N N true; OStatus N N true; OStatus N N true; OStatus N N true; OUpdate N N true None;
    OIter N N [(1, 10); (4, 40); (1, 11); (7, 70); (5, 50)] [inr 40; inl 4; inr 10] true; OVals N N [11]; ONum N N 3]).
Proof.
  eexists. split; [reflexivity|]. cbn zeta. split.
  - cbn [legal op_ok]. repeat split; auto; repeat constructor.
  - eexists. vm_compute. reflexivity.
Qed.

(** What the conditions of [legal] exclude does go wrong. Updating an unknown key in a table that grows and shrinks writes through the released bucket array. *)
Theorem hash_update_in_growing_table_refuted : ~ (forall (base : N) (h : table N N) (k v : N), 0 < base < 2 ^ 32 ->
  hash_init N N seven base true false true = Some h -> exists r, update N N modhash N.eqb seven h k v true true true = Some r).
Proof.
  intros H. destruct (H 8 _ 1 1 ltac:(split; reflexivity) eq_refl) as (r & Hr). vm_compute in Hr. discriminate.
Qed.
(** So does a handler that removes the entry it is given, once the table has been resized. *)
Theorem hash_removal_in_growing_iteration_refuted : ~ (forall (ops : list (op N N)) (h h' : table N N) outs, hash_init N N seven 8 true false true = Some h ->
  run N N modhash N.eqb seven h ops = Some (h', outs) -> exists r, iterate N N modhash N.eqb h' [(Some FNone, false)] = Some r).
Proof.
  intros H. assert (R : exists h' outs, run N N modhash N.eqb seven (mkT 8 16 0 true false 0 (repeat [] 8) [] None (fun _ => None) 0) [ins 1 1; ins 2 2] = Some (h', outs)
      /\ iterate N N modhash N.eqb h' [(Some FNone, false)] = None) by (eexists; eexists; split; vm_compute; reflexivity).
  destruct R as (h' & outs & R1 & R2). destruct (H [ins 1 1; ins 2 2] _ h' outs eq_refl R1) as (r & Hr). congruence.
Qed.
(** A handler that removes its entry and stops the iteration leaves the entry behind: it still counts, and it hides a later insert of the same key. *)
Theorem hash_stop_after_removal_refuted : ~ (forall (h h' : table N N) (k v w : N) (outs : list (out N N)), hash_init N N seven 8 false false true = Some h ->
  run N N modhash N.eqb seven h [ins k v; HIterate N N [(Some FKV, true)]; ins k w; HSearch N N k] = Some (h', outs) -> nth_error outs 3 = Some (OVal N N (Some w))).
Proof.
  intros H. assert (R : exists h' outs, run N N modhash N.eqb seven (mkT 8 16 0 false false 0 (repeat [] 8) [] None (fun _ => None) 0)
      [ins 1 5; HIterate N N [(Some FKV, true)]; ins 1 6; HSearch N N 1] = Some (h', outs) /\ nth_error outs 3 = Some (OVal N N None))
    by (eexists; eexists; split; vm_compute; reflexivity).
  destruct R as (h' & outs & R1 & R2). pose proof (H _ h' 1 5 6 outs eq_refl R1). congruence.
Qed.
(** A caller of the search iterator who waits for NULL may wait for ever: after the last entry of its chain the context is NULL again. *)
Theorem hash_search_until_null_refuted : exists h h' outs, hash_init N N seven 8 false false true = Some h /\
  run N N modhash N.eqb seven h [ins 1 5] = Some (h', outs) /\ forall fuel, search_until_null N N modhash N.eqb fuel h' 1 [] = None.
Proof.
  exists (mkT 8 16 0 false false 0 (repeat [] 8) [] None (fun _ => None) 0). eexists. eexists. split; [reflexivity|]. split; [vm_compute; reflexivity|].
  induction fuel as [| f IH]; [reflexivity|]. cbn [search_until_null].
  match goal with |- context [search_iterator N N modhash N.eqb ?h 1 []] => replace (search_iterator N N modhash N.eqb h 1 []) with (Some (Some (5, @nil N))) by (vm_compute; reflexivity) end.
  cbn [obind]. rewrite IH. reflexivity.
Qed.

Print Assumptions hash_table_is_a_map.
Print Assumptions hash_update_in_growing_table_refuted.
Print Assumptions hash_removal_in_growing_iteration_refuted.
Print Assumptions hash_stop_after_removal_refuted.
Print Assumptions hash_search_until_null_refuted.

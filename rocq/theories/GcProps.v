(** * Garbage collection: the properties *)

From Coq Require Import List NArith Bool Lia PeanoNat.
From Coq Require Import ZifyBool ZifyNat ZifyN.
From Verif Require Import Base GcModel GcSpec GcProofs.
Import ListNotations.
Local Open Scope N_scope.

Definition none : N -> list N := fun _ => [].
Definition heap (l : list (N * list N)) : N -> list N :=
  fun x => flat_map (fun p => if N.eqb (fst p) x then snd p else []) l.

(** Objects 1 to 6: 1 is a root, 1 and 2 hold each other, 3 and 4 hold each other and
    2, nobody holds 5, nobody suspects 6, which holds 5's friend 2. *)
Definition story : list op := map Add [1; 2; 3; 4; 5; 6] ++ map Suspect [1; 2; 3; 4; 5].
Definition story_heap : N -> list N := heap [(1, [2]); (2, [1]); (3, [4; 2]); (4, [3; 2]); (6, [2])].
Definition blank : gc := gc_new [] (fun _ => item_new).

Definition collected (ops : list op) (members : N -> list N) (roots : list N) (releases : N -> list N) : option (list N * list N * list (list N)) :=
  match op_run blank ops with
  | Some g => match gc_collect g members roots releases with
              | Some (g', m', out) => Some (out, g_items g', map m' (g_items g))
              | None => None
              end
  | None => None
  end.

Example story_collected : collected story story_heap [1] none = Some ([3; 4; 5], [1; 2; 6], [[]; [1]; [2]; []; []; [2]]).
Proof. vm_compute. reflexivity. Qed.
Example story_legal : ops_legal blank story /\ match op_run blank story with Some g => closed g story_heap [1] | None => False end.
Proof.
  split.
  - vm_compute. repeat split; try discriminate; intuition discriminate.
  - vm_compute. split; [|intuition].
    intros x y Hx. repeat destruct Hx as [<-|Hx]; try contradiction; vm_compute; intuition.
Qed.

(** ** What a collection frees: only suspected objects that nothing holds, from the
    roots or from unsuspected objects; all of them, unless [item_freer] released them
    on the way; none twice. The others remain, in order, and so does what is suspected. *)
Theorem gc_collect_exact others r ops g members roots releases g' m' out :
  ops_legal (gc_new others r) ops -> op_run (gc_new others r) ops = Some g -> closed g members roots ->
  gc_collect g members roots releases = Some (g', m', out) ->
  let garbage x := In x (g_items g) /\ is_suspect g x /\ ~ stays (g_items g) (is_suspect g) members roots x in
  let gone := flat_map (fun x => x :: releases x) out in
  (forall x, In x out -> garbage x) /\
  (forall x, garbage x -> In x gone) /\
  NoDup gone /\
  g_items g' = filter (fun x => negb (elem x gone)) (g_items g) /\
  (forall x, In x (g_items g') -> (is_suspect g' x <-> is_suspect g x)).
Proof.
  intros L H C E garbage gone. pose proof (rest_run _ _ _ (rest_new others r) L H) as R.
  pose proof (collect_spec _ _ _ _ _ _ _ R C E) as S. cbn zeta in S. fold garbage in S. fold gone in S. tauto.
Qed.
Print Assumptions gc_collect_exact.

(** With handlers that release nothing else a collection always ends well, and what is
    freed is exactly the garbage. *)
Theorem gc_collect_garbage others r ops g members roots :
  ops_legal (gc_new others r) ops -> op_run (gc_new others r) ops = Some g -> closed g members roots ->
  exists g' m' out, gc_collect g members roots (fun _ => []) = Some (g', m', out) /\ NoDup out /\
  (forall x, In x out <-> In x (g_items g) /\ is_suspect g x /\ ~ stays (g_items g) (is_suspect g) members roots x) /\
  (forall x, In x (g_items g') <-> In x (g_items g) /\ ~ In x out).
Proof.
  intros L H C. pose proof (rest_run _ _ _ (rest_new others r) L H) as R.
  destruct (collect_total g members roots R C) as (g' & m' & out & E). exists g', m', out. split; [exact E|].
  pose proof (gc_collect_exact _ _ _ _ _ _ _ _ _ _ L H C E) as S. cbn zeta in S.
  assert (G : flat_map (fun x => x :: (fun _ : N => @nil N) x) out = out) by (clear; induction out as [|x l IH]; [reflexivity|]; cbn [flat_map app] in *; now rewrite IH).
  cbv beta in S, G. rewrite G in S. destruct S as (S1 & S2 & S3 & S4 & S5). split; [exact S3|]. split.
  - intros x. split; [apply S1|apply S2].
  - intros x. rewrite S4, filter_In, negb_true_iff, elem_out. reflexivity.
Qed.
Print Assumptions gc_collect_garbage.

(** In particular what can be reached from a root is never freed. *)
Theorem gc_reachable_kept others r ops g members roots releases g' m' out x y :
  ops_legal (gc_new others r) ops -> op_run (gc_new others r) ops = Some g -> closed g members roots ->
  gc_collect g members roots releases = Some (g', m', out) ->
  In x roots -> In x (g_items g) -> from members x y -> ~ In y out.
Proof.
  intros L H C E IR II F Q. pose proof (gc_collect_exact _ _ _ _ _ _ _ _ _ _ L H C E) as S. cbn zeta in S. destruct S as (S1 & _).
  apply S1 in Q. destruct Q as (_ & _ & Q). apply Q. induction F as [|y z F IH Hz]; [now apply stays_root|]. eapply stays_member; [|exact Hz]. apply IH.
  intros W. apply Q. eapply stays_member; eauto.
Qed.
Print Assumptions gc_reachable_kept.

(** ** Members: only objects that garbage leads to are searched. Of the members of
    these, garbage is removed everywhere, and one link to each other object is kept;
    all other objects keep their members. *)
Theorem gc_collect_members others r ops g members roots releases g' m' out :
  ops_legal (gc_new others r) ops -> op_run (gc_new others r) ops = Some g -> closed g members roots ->
  gc_collect g members roots releases = Some (g', m', out) ->
  let garbage x := In x (g_items g) /\ is_suspect g x /\ ~ stays (g_items g) (is_suspect g) members roots x in
  exists junk found,
    (forall x, In x junk <-> garbage x) /\ NoDup (junk ++ found) /\
    (forall x, In x (junk ++ found) <-> exists y, garbage y /\ from members y x) /\
    found = flat_map m' (junk ++ found) /\
    (forall x, incl (m' x) (members x)) /\
    (forall x, ~ In x (junk ++ found) -> m' x = members x).
Proof.
  intros L H C E garbage. pose proof (rest_run _ _ _ (rest_new others r) L H) as R.
  pose proof (collect_spec _ _ _ _ _ _ _ R C E) as S. cbn zeta in S. fold garbage in S.
  destruct S as (_ & _ & _ & _ & _ & _ & _ & G & all & GI & ND & EQ & SUB & SAME & CLOSED & FROM).
  exists G, (flat_map m' all). rewrite <- EQ. split; [exact GI|]. split; [exact ND|]. split; [|auto].
  intros x. split.
  - intros Hx. destruct (FROM x Hx) as (y & Y1 & Y2). exists y. split; [now apply GI|exact Y2].
  - intros (y & Hy & F). induction F as [|z w F IH Hw].
    + rewrite EQ. apply in_or_app. left. now apply GI.
    + exact (CLOSED z IH w Hw).
Qed.
Print Assumptions gc_collect_members.

Example story_members : option_map (fun p => snd p) (collected story story_heap [1] none) = Some [[]; [1]; [2]; []; []; [2]].
Proof. vm_compute. reflexivity. Qed.

(** ** What the other operations do: an object added is watched and not suspected, a
    suspicion concerns the one object, a removed object is watched no longer. *)
Theorem gc_operations g x :
  (g_items (gc_add g x) = g_items g ++ [x] /\ forall y, is_suspect (gc_add g x) y <-> y <> x /\ is_suspect g y) /\
  (In x (g_items g) -> exists g', gc_suspect g x = Some g' /\ g_items g' = g_items g /\ forall y, is_suspect g' y <-> y = x \/ is_suspect g y) /\
  (In x (g_items g) -> exists g', gc_remove g x = Some g' /\ g_items g' = filter (fun y => negb (N.eqb x y)) (g_items g) /\
    forall y, is_suspect g' y <-> is_suspect g y).
Proof.
  unfold is_suspect. split; [|split].
  - split; [reflexivity|]. intros y. cbn [gc_add rec_set g_rec]. destruct (N.eqb_spec x y) as [->|ne]; cbn [item_new suspected]; [intuition congruence|]. intuition congruence.
  - intros I. unfold gc_suspect, known. rewrite (proj2 (elem_in x _) I). cbn [orb]. eexists. split; [reflexivity|]. split; [reflexivity|].
    intros y. cbn [rec_set g_rec]. destruct (N.eqb_spec x y) as [->|ne]; cbn [suspected]; [tauto|]. intuition congruence.
  - intros I. unfold gc_remove. rewrite (proj2 (elem_in x _) I). eexists. split; [reflexivity|]. split; reflexivity.
Qed.
Print Assumptions gc_operations.
Example gc_operations_ex : match op_run blank [Add 1; Add 2; Suspect 2; Add 3; Suspect 1; Remove 1] with
  | Some g => g_items g = [2; 3] /\ map (fun x => suspected (g_rec g x)) [2; 3] = [true; false]
  | None => False
  end.
Proof. vm_compute. split; reflexivity. Qed.

(** ** Merging two collectors keeps every object. *)
Theorem gc_merge_all dest src : Rest dest -> Rest src -> g_rec dest = g_rec src -> (forall x, In x (g_items dest) -> ~ In x (g_items src)) ->
  Rest (gc_merge dest src) /\ forall x, In x (g_items (gc_merge dest src)) <-> In x (g_items dest) \/ In x (g_items src).
Proof.
  intros A B E D. split.
  - constructor; cbn [gc_merge g_items g_proc g_rec].
    + pose proof (r_nodup _ A) as N1. pose proof (r_nodup _ B) as N2. revert N1 D. generalize (g_items dest). induction l as [|x l IH]; intros N1 D; [exact N2|].
      apply NoDup_cons_iff in N1. destruct N1 as [X Y]. cbn [app]. constructor.
      * intros Q. apply in_app_or in Q. destruct Q as [Q|Q]; [contradiction|]. apply (D x); [now left|exact Q].
      * apply IH; [exact Y|]. intros y Hy. apply D. now right.
    + intros Q. apply in_app_or in Q. destruct Q as [Q|Q]; [now apply (r_zero _ A)|now apply (r_zero _ B)].
    + exact (r_proc _ A).
    + intros x Hx. apply in_app_or in Hx. destruct Hx as [Hx|Hx]; [now apply (r_clear _ A)|]. rewrite E. now apply (r_clear _ B).
  - intros x. cbn [gc_merge g_items]. apply in_app_iff.
Qed.
Print Assumptions gc_merge_all.

(** ** What does not hold *)

Lemma run_then start ops members roots (P : gc -> gc -> (N -> list N) -> list N -> Prop) :
  match op_run start ops with
  | Some g => match gc_collect g members roots none with Some (g', m', out) => P g g' m' out | None => False end
  | None => False
  end ->
  exists g g' m' out, op_run start ops = Some g /\ gc_collect g members roots none = Some (g', m', out) /\ P g g' m' out.
Proof.
  intros H. destruct (op_run start ops) as [g|]; [|contradiction].
  destruct (gc_collect g members roots none) as [[[g' m'] out]|] eqn:E; [|contradiction]. exists g, g', m', out. auto.
Qed.

(** An object that stays, and that garbage holds, can lose a member that stays. *)
Theorem gc_members_kept_refuted : exists ops members roots x y g g' m' out,
  op_run blank ops = Some g /\ gc_collect g members roots none = Some (g', m', out) /\
  ops_legal blank ops /\ closed g members roots /\
  In x roots /\ In x (g_items g') /\ In y (members x) /\ In y (g_items g') /\ ~ In y (m' x).
Proof.
  exists (map Add [1; 2; 3] ++ map Suspect [2; 3]), (heap [(1, [1]); (2, [3; 1]); (3, [2])]), [1], 1, 1.
  apply run_then. vm_compute. repeat split; try discriminate; try (intuition discriminate).
  intros x y Hx. repeat destruct Hx as [<-|Hx]; try contradiction; vm_compute; intuition.
Qed.
Print Assumptions gc_members_kept_refuted.

(** An object held only by a suspected object of another collector is freed although a
    root leads to it. *)
Theorem gc_foreign_refuted : exists others r ops members roots x y g g' m' out,
  op_run (gc_new others r) ops = Some g /\ gc_collect g members roots none = Some (g', m', out) /\
  In x roots /\ from members x y /\ In y out.
Proof.
  exists [9], (fun _ => mkItem true false false false), (map Add [1; 2] ++ [Suspect 2]), (heap [(1, [9]); (9, [2])]), [1], 1, 2.
  apply run_then. set (F := from (heap [(1, [9]); (9, [2])]) 1 2). assert (HF : F).
  { eapply from_member with (y := 9); [eapply from_member with (y := 1); [constructor|]|]; vm_compute; auto. }
  clearbody F. vm_compute. auto.
Qed.
Print Assumptions gc_foreign_refuted.

(** [mln_gc_collect_add] takes NULL, [mln_gc_clean_add] does not. *)
Theorem gc_null_member_refuted : exists ops members, ops_legal blank ops /\ members 1 = [0] /\
  (forall g, collect_add g 0 = Some g) /\
  match op_run blank ops with Some g => gc_collect g members [] none = None | None => False end.
Proof.
  exists [Add 1; Suspect 1], (heap [(1, [0])]). split; [vm_compute; repeat split; try discriminate; intuition|].
  split; [reflexivity|]. split; [reflexivity|]. vm_compute. reflexivity.
Qed.
Print Assumptions gc_null_member_refuted.

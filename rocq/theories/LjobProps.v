(** C74: the jobs of the script language, their programs and their names. *)
Require Import List Arith NArith Bool Lia Sorting.Permutation.
Require Import ZifyNat ZifyN.
Require Import Verif.Base Verif.LjobModel Verif.LjobSpec Verif.LjobProofs.
Import ListNotations.
Open Scope N_scope.

(** Over every history, with or without the cache, each job runs the program it was made from, until it ends: no tree is freed that a job runs. A job
    that cannot be made changes nothing for the others. A name that was never asked for while a job had it stands for that job.
    Partial: see the refutations below for what files and names have to keep, and for a job that ends itself. *)
Theorem job_program_partial : forall os, N.of_nat (length os) < 2 ^ 63 ->
  match run new os with
  | Ok (_, outs) => exists d, follows [] (mkWJ [] []) os outs d
  | Fault _ => exists pre o post outs d, os = pre ++ o :: post /\ follows [] (mkWJ [] []) pre outs d /\ ~ proper d o
  end.
Proof.
  intros os B. pose proof (run_ok os [] new _ new_R B) as H. destruct (run new os) as [[c outs]|]; [|exact H]. destruct H as (d & F & _). eauto.
Qed.
Print Assumptions job_program_partial.

(** Every tree that was made is freed once when the language ends. *)
Theorem job_trees_freed : forall os c outs, N.of_nat (2 * length os) < 2 ^ 63 -> run new os = Ok (c, outs) ->
  exists c', close c = Ok c' /\ Permutation (freed c') (seq 0 (length (trees c))).
Proof.
  intros os c outs B E. pose proof (run_ok os [] new _ new_R ltac:(cbn [length Nat.add]; lia)) as H. rewrite E in H. destruct H as (d & _ & H). cbn [app] in H. apply (close_ok os c d H). lia.
Qed.
Print Assumptions job_trees_freed.

(** A program, a file with the same text, a path, the path again 20 and 31 seconds later when the file is another, and names *)
Definition at_ (t : N) (s : option (list N)) : world := mkW t s s true.
Definition history : list op :=
  [Caching; New Buf [120; 61] (Some [97]) (at_ 5 None) None; New File [98] None (at_ 6 (Some [120; 61])) None; New File [47; 99] None (at_ 7 (Some [121])) None;
   Free 0; Use 1; New File [47; 99] None (at_ 20000007 (Some [122])) None; Use 3; New File [47; 99] (Some [97]) (at_ 31000007 (Some [122])) None; Use 4; Use 3;
   Kill 1 [97]; New Buf [33] (Some [97]) (mkW 31000008 None None false) None; Use 5; New Buf [120] None (at_ 31000009 None) (Some ForEntry); New Buf [120] None (at_ 31000010 None) (Some Behind);
   Free 1; Free 2].
Example job_ex_history : match run new history with
  | Ok (c, outs) =>
      outs = [Done; Made 0; Made 1; Made 2; Done; Ran (Some [120; 61]); Made 3; Ran (Some [121]); Made 4; Ran (Some [122]); Ran (Some [121]); Done; Made 5; Ran None;
              Made 6; Refused; Done; Done] /\
      match close c with Ok c' => freed c' = [2; 3; 4; 0; 1]%nat | Fault _ => False end
  | Fault _ => False
  end.
Proof. vm_compute. split; reflexivity. Qed.
Example job_ex_steady : Forall steady history.
Proof.
  assert (P : forall ch s, ch <> 47 -> ch <> 64 -> ~ path (ch :: s)) by (intros ch s H1 H2 (r & [X|X]); congruence).
  repeat (apply Forall_cons; [|]); try apply Forall_nil; try exact Logic.I; cbn [steady]; try (apply P; discriminate); try (left; exists [99]; now left).
  right. split; [reflexivity|]. intros t E. assert (t = [120; 61]) by (cbn [at_ first] in E; congruence). subst. apply P; discriminate.
Qed.

(** A job does not run its program if a file was changed while an earlier job was made from it: it is read once for the key and once for the tree. *)
Theorem job_two_reads_refuted : ~ (forall os c outs content w c' j t, run new os = Ok (c, outs) ->
  step c (New Buf content None w None) = Ok (c', Made j) -> use c' j = Ok (Some t) -> t = content).
Proof.
  intros H. pose (os := [Caching; New File [98] None (mkW 6 (Some [120]) (Some [121]) true) None]).
  assert (W : match run new os with Ok (c, outs) => match step c (New Buf [120] None (at_ 7 None) None) with Ok (c', Made j) => use c' j = Ok (Some [121]) | _ => False end | Fault _ => False end) by (vm_compute; reflexivity).
  destruct (run new os) as [[c outs]|] eqn:E; [|contradiction]. destruct (step c (New Buf [120] None (at_ 7 None) None)) as [[c' [|j| |]]|] eqn:S; try contradiction.
  specialize (H os c outs [120] (at_ 7 None) c' j [121] E S W). discriminate.
Qed.
Print Assumptions job_two_reads_refuted.

(** And if its text is the path of a file that a job was made from: the key does not say which of the two it is. *)
Theorem job_kind_refuted : ~ (forall os c outs content w c' j t, (forall k s a w f, In (New k s a w f) os -> first w = second w) -> run new os = Ok (c, outs) ->
  step c (New Buf content None w None) = Ok (c', Made j) -> use c' j = Ok (Some t) -> t = content).
Proof.
  intros H. pose (os := [Caching; New File [47; 98] None (at_ 6 (Some [121])) None]).
  assert (W : match run new os with Ok (c, outs) => match step c (New Buf [47; 98] None (at_ 7 None) None) with Ok (c', Made j) => use c' j = Ok (Some [121]) | _ => False end | Fault _ => False end) by (vm_compute; reflexivity).
  destruct (run new os) as [[c outs]|] eqn:E; [|contradiction]. destruct (step c (New Buf [47; 98] None (at_ 7 None) None)) as [[c' [|j| |]]|] eqn:S; try contradiction.
  specialize (H os c outs [47; 98] (at_ 7 None) c' j [121]). assert (X : [121] = [47; 98]); [|discriminate]. apply H; auto.
  intros k s a w f [I|[I|[]]]; [discriminate|]. assert (w = at_ 6 (Some [121])) by congruence. subst. reflexivity.
Qed.
Print Assumptions job_kind_refuted.

(** Two jobs can have one name: a job that is refused because its name is taken takes the name from the other. *)
Theorem job_name_refuted : ~ (forall os c outs x y a, run new os = Ok (c, outs) -> In x (jobs c) -> In y (jobs c) -> j_alias x = Some a -> j_alias y = Some a -> x = y).
Proof.
  intros H. pose (n := New Buf [120] (Some [97]) (at_ 5 None) None).
  assert (W : match run new [n; n; n] with Ok (c, outs) => outs = [Made 0; Refused; Made 1] /\ jobs c = [mkJ 0 (Own 0) (Some [97]); mkJ 1 (Own 2) (Some [97])] | Fault _ => False end) by (vm_compute; split; reflexivity).
  destruct (run new [n; n; n]) as [[c outs]|] eqn:E; [|contradiction]. destruct W as [_ W].
  specialize (H _ c outs (mkJ 0 (Own 0) (Some [97])) (mkJ 1 (Own 2) (Some [97])) [97] E). rewrite W in H. assert (X : mkJ 0 (Own 0) (Some [97]) = mkJ 1 (Own 2) (Some [97])); [|discriminate].
  apply H; [now left|right; now left|reflexivity|reflexivity].
Qed.
Print Assumptions job_name_refuted.

(** A job that kills its own name is freed while it runs. *)
Theorem job_itself_refuted : ~ (forall os c outs j a, run new os = Ok (c, outs) -> In j (map j_id (jobs c)) -> exists c', kill c j a = Ok c').
Proof.
  intros H. pose (os := [New Buf [120] (Some [97]) (at_ 5 None) None]).
  assert (W : match run new os with Ok (c, outs) => map j_id (jobs c) = [0%nat] /\ kill c 0 [97] = Fault Itself | Fault _ => False end) by (vm_compute; split; reflexivity).
  destruct (run new os) as [[c outs]|] eqn:E; [|contradiction]. destruct W as [W1 W2]. destruct (H os c outs 0%nat [97] E) as (c' & X); [rewrite W1; now left|congruence].
Qed.
Print Assumptions job_itself_refuted.

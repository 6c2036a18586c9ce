(** C73: the pipe between C and a script. *)
Require Import List Arith NArith ZArith Bool Lia.
Require Import Verif.Base Verif.LpipeModel Verif.LpipeSpec Verif.LpipeProofs.
Import ListNotations.
Open Scope N_scope.

(** Every history of a context that has its answers has those of a queue of messages; and one whose calls are proper has its answers.
    Partial: memory for the tree node of the resource has to be there (see [pipe_node_refuted]), and operations come one after the other. *)
Theorem pipe_is_queue_partial : forall os,
  (forall c outs, run None os = Ok (c, outs) -> exists d, follows None os outs d) /\
  (Forall proper os -> exists c outs, run None os = Ok (c, outs)).
Proof.
  intros os. pose proof (run_ok os None None Logic.I) as H. split.
  - intros c outs E. rewrite E in H. destruct H as (d & F & _). eauto.
  - intros P. destruct (run None os) as [[c outs]|f]; [eauto|]. destruct H as (o & I & N). rewrite Forall_forall in P. destruct (N (P o I)).
Qed.
Print Assumptions pipe_is_queue_partial.

(** Once the script has subscribed, each message that was sent with success comes to the script once, in the order of sending, with the values that
    were sent: what it has got so far, and what it gets with the next call if memory lasts, are together what was sent. *)
Theorem pipe_delivers : forall os c outs, run None (Subscribe None :: os) = Ok (c, outs) ->
  (exists vs, all_sent (Subscribe None :: os) outs vs) /\
  forall vs, all_sent (Subscribe None :: os) outs vs ->
    exists rest c', vs = flat_map got outs ++ rest /\ step c (Recv []) = Ok (c', Script (Got rest)).
Proof. intros os c outs E. split; [exact (sent_some os outs c E)|exact (delivers os c outs E)]. Qed.
Print Assumptions pipe_delivers.

(** Two messages and one with an unknown letter, a failure for memory while receiving, a handler, and the time after the script has unsubscribed *)
Definition history : list op :=
  [Subscribe None; Send [105; 115] [AInt 7; AText [104; 105; 0; 9]] []; Tell (Int 1) 0 None; Recv [true; true; true; true; true; false];
   Send [105; 120] [AInt 8] []; Send [83; 114] [AStr [0; 1]; AReal 5] []; Handler (Some 3) None; Recv []; Tell (Int 1) (-1) None;
   Send [105] [AInt 4] []; Unsubscribe None; Send [105] [AInt 9] []; Recv []; Recv []].
Example pipe_ex_history : exists c, run None history = Ok (c,
  [Script Nil; Rc true; Script (Is true); Script Error; Rc false; Rc true; Rc true; Script (Got [[Int 7; Str [104; 105]]; [Str [0; 1]; Real 5]]);
   Called 3 (Int 1) (Is false); Rc true; Script Nil; Rc false; Script (Got [[Int 4]]); Script (Got [])]).
Proof. vm_compute. eexists. reflexivity. Qed.
Example pipe_ex_proper : Forall proper history.
Proof.
  assert (W : forall xs fmt args m, Forall item_ok xs -> fmt = map letter xs -> args = map argument xs -> proper (Send fmt args m)).
  { intros xs fmt args m H -> ->. left. exists xs. split; [exact H|]. split; [reflexivity|]. exists []. now rewrite app_nil_r. }
  assert (TT : ~ In 0 [104; 105]) by (intros [X|[X|[]]]; discriminate).
  repeat (apply Forall_cons); try apply Forall_nil; try exact Logic.I; try (intros X; discriminate X).
  - apply (W [I 7; T [104; 105] [9]]); [|reflexivity|reflexivity]. repeat constructor. exact TT.
  - right. exists [I 8], 120, [], []. split; [repeat constructor|]. split; [reflexivity|]. split; [reflexivity|].
    intros [X|[X|[X|[X|[]]]]]; discriminate X.
  - apply (W [S_ [0; 1]; R_ 5]); [repeat constructor|reflexivity|reflexivity].
  - apply (W [I 4]); [repeat constructor|reflexivity|reflexivity].
  - apply (W [I 9]); [repeat constructor|reflexivity|reflexivity].
Qed.

(** Success does not mean that the message comes to the script: before anyone has asked for the pipe, the message is dropped with success. *)
Theorem pipe_lost_refuted : ~ (forall os c outs vs, run None os = Ok (c, outs) -> all_sent os outs vs -> exists rest, vs = flat_map got outs ++ rest /\
  forall c' r, step c (Recv []) = Ok (c', Script r) -> r = Got rest).
Proof.
  intros H. destruct (H [Send [105] [AInt 1] []; Subscribe None; Recv []] (Some (mkP [] 1024 None true)) [Rc true; Script Nil; Script (Got [])] [[Int 1]]) as (rest & E & G).
  - vm_compute. reflexivity.
  - apply (sent_cons _ _ _ _ [[Int 1]] []).
    + exists [I 1]. split; [|reflexivity]. split; [repeat constructor|]. split; [reflexivity|]. now exists [].
    + apply (sent_cons _ _ _ _ [] []); [reflexivity|]. apply (sent_cons _ _ _ _ [] []); [reflexivity|]. constructor.
  - specialize (G (Some (mkP [] 1024 None true)) (Got []) eq_refl). assert (rest = []) by congruence. subst. discriminate E.
Qed.
Print Assumptions pipe_lost_refuted.

(** Not every history has its answers: without memory for the tree node of the resource, the pipe is freed twice. *)
Theorem pipe_node_refuted : ~ (forall os, (forall fmt args m, In (Send fmt args m) os -> proper (Send fmt args m)) -> exists c outs, run None os = Ok (c, outs)).
Proof.
  intros H. destruct (H [Subscribe (Some ForNode)]) as (c & outs & E); [|vm_compute in E; discriminate].
  intros fmt args m [X|[]]. discriminate X.
Qed.
Print Assumptions pipe_node_refuted.

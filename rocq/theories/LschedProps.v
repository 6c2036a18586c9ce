(** C75: the turns of the jobs of the script language. *)
Require Import List Arith NArith Bool Lia.
Require Import Verif.Base Verif.LschedModel Verif.LschedSpec Verif.LschedProofs.
Import ListNotations.

(** Whatever the threads do, in any order: the turn is always that of the first job in the queue, no two threads run the same job, a turn has at
    most 1700 steps and ends before only if the job is suspended or returns, each job does the steps of its program in their order, none after it was
    told to quit (if it was not suspended) and at most one while it is suspended, and returns when they are done or it was told to quit. *)
Theorem sched_lawful : forall os s h, run start [] os = Ok (s, h) -> lawful h.
Proof. intros os s h R. exact (proj2 (run_inv os _ _ _ _ inv_start R) I). Qed.
Print Assumptions sched_lawful.

(** A job returns at most once, and has no step and no turn afterwards. *)
Theorem sched_returns_once : forall os s h0 h t j, run start [] os = Ok (s, h ++ Returned t j :: h0) ->
  forall u, ~ In (Returned u j) h /\ ~ In (Enter u j) h /\ (forall a, ~ In (Ran u j a) h).
Proof.
  intros os s h0 h t j R u. apply sched_lawful in R.
  assert (L0 : lawful (Returned t j :: h0)) by (clear -R; induction h as [|e h IH]; [exact R|]; destruct R; auto).
  destruct L0 as (G & L0). cbn [legal] in G. destruct G as (_ & A & _).
  assert (P : program (Returned t j :: h0) j <> None) by (cbn [program]; apply alive_program; assumption).
  assert (D : ~ alive (Returned t j :: h0) j).
  { unfold alive. cbn [queue sleepers]. change without with del. rewrite !del_in. tauto. }
  destruct (gone j _ P D h R) as (_ & _ & X & Y & Z). auto.
Qed.
Print Assumptions sched_returns_once.

(** Round robin: while a job with [i] jobs before it waits for its turn, no more than [i] turns begin. *)
Theorem sched_fair : forall os os' s h0 s' h i j,
  run start [] os = Ok (s, h0) -> nth_error (queue h0) i = Some j -> run s h0 os' = Ok (s', h ++ h0) ->
  forallb (fun e => negb (about j e)) h = true -> turns h <= i.
Proof.
  intros os os' s h0 s' h i j R N R' B. destruct (run_inv os _ _ _ _ inv_start R) as (V & L). specialize (L I).
  destruct (run_inv os' _ _ _ _ V R') as (_ & L'). apply before_nth in N. destruct N as (N & M).
  destruct (fair j h0 M h (L' L) B) as (_ & T). lia.
Qed.
Print Assumptions sched_fair.

(** No wake-up is lost: while a job waits for a turn, the flag is set or a thread is in the handler. *)
Theorem sched_wakes : forall os s h, run start [] os = Ok (s, h) -> queue h <> [] -> flag s = true \/ exists t, pcs s t <> Out.
Proof. intros os s h R Q. destruct (run_inv os _ _ _ _ inv_start R) as (V & _). apply (i_flag _ _ V). rewrite (i_q _ _ V). exact Q. Qed.
Print Assumptions sched_wakes.
(** A call of the handler begins a turn of the first job, if no thread is in one. *)
Theorem sched_call : forall os s h t j l, run start [] os = Ok (s, h) -> pcs s t = Out -> queue h = j :: l -> (forall u, inside h u <> Some j) ->
  exists s', step s (Call t) = Ok (s', [Enter t j]).
Proof.
  intros os s h t j l R T Q U. destruct (run_inv os _ _ _ _ inv_start R) as (V & _). cbn [step]. rewrite T. unfold call.
  pose proof (i_q _ _ V) as E. rewrite Q in E. rewrite E.
  destruct (owner (info s j)) as [u|] eqn:O; [|eauto]. exfalso. apply (U u). rewrite (i_pc _ _ V).
  apply (i_own _ _ V j u); [left; rewrite E; left; reflexivity|exact O].
Qed.
Print Assumptions sched_call.
(** A thread leaves the handler after at most 3402 of its actions. *)
Theorem sched_turn_ends : forall os os' s h s' h' t, run start [] os = Ok (s, h) -> run s h os' = Ok (s', h') ->
  existsb (calls t) os' = false -> 3402 <= length (filter (goes t) os') -> pcs s' t = Out.
Proof.
  intros os os' s h s' h' t R R' C G. destruct (run_inv os _ _ _ _ inv_start R) as (V & _).
  pose proof (left_run t os' _ _ _ _ V R' C). pose proof (left_bound s h t V). apply left_out. lia.
Qed.
Print Assumptions sched_turn_ends.
(** No job is used after it was freed, if nobody names such a job and nobody frees a job in its turn. *)
Theorem sched_no_fault : forall os s h o, run start [] os = Ok (s, h) -> careful h -> sensible h o -> exists s' e, step s o = Ok (s', e).
Proof. intros os s h o R C S. destruct (run_inv os _ _ _ _ inv_start R) as (V & L). exact (step_ok s h o V (L I) C S). Qed.
Print Assumptions sched_no_fault.

Definition w (n : N) := mkA n false false.
(** Two threads run three jobs; the first is suspended by itself, continued, and returns; the second is told to quit. *)
Definition ex_ops : list op :=
  [New [w 1; mkA 2 true false; w 3] true; New [w 4; mkA 5 false true; w 6] true; New [w 7] true; New [w 8] false;
   Call 0; Call 1; Go 0; Go 1; Go 0; Go 0; Go 1; Go 0; Go 0; Continue 0; Go 1; Go 1; Go 1; Call 0; Go 1; Call 1].
Example sched_ex_history :
  match run start [] ex_ops with
  | Ok (s, h) =>
      rev h = [Born 0 [w 1; mkA 2 true false; w 3]; Born 1 [w 4; mkA 5 false true; w 6]; Born 2 [w 7]; Enter 0 0; Enter 1 1; Ran 0 0 (w 1); Ran 1 1 (w 4);
               Ran 0 0 (mkA 2 true false); Slept 0; Exit 0 0; Woke 0; Ran 1 1 (mkA 5 false true); Returned 1 1; Enter 0 2; Enter 1 0]
      /\ queue h = [2; 0] /\ inside h 0 = Some 2 /\ careful h /\ flag s = true /\ sensible h (Suspend 2)
  | Fault _ => False
  end.
Proof. vm_compute. repeat split; try (intros; discriminate). auto. Qed.
(** The third of three jobs: two turns begin before its own. *)
Example sched_ex_fair :
  match run start [] (firstn 3 ex_ops) with
  | Ok (s, h0) =>
      nth_error (queue h0) 2 = Some 2 /\
      match run s h0 [Call 0; Call 1; Go 0; New [] true] with
      | Ok (_, h) => h = [Born 3 []; Ran 0 0 (w 1); Enter 1 1; Enter 0 0] ++ h0 /\ turns (firstn 4 h) = 2 /\ forallb (fun e => negb (about 2 e)) (firstn 4 h) = true
      | Fault _ => False
      end
  | Fault _ => False
  end.
Proof. vm_compute. repeat split. Qed.
(** A job with more than 1700 steps: its turn ends, and the next one begins with the step that is next. *)
Example sched_ex_long :
  match run start [] ([New (repeat (w 9) 1701) true; Call 0] ++ repeat (Go 0) 3402) with
  | Ok (s, h) =>
      length (done h 0) = 1700 /\ inside h 0 = None /\ pcs s 0 = Out /\ queue h = [0] /\ (forall u, inside h u <> Some 0) /\
      match run s h [Call 1; Go 1; Go 1; Go 1; Go 1; Go 1] with Ok (s', h') => firstn 2 h' = [Returned 1 0; Ran 1 0 (w 9)] /\ queue h' = [] /\ flag s' = false | Fault _ => False end
  | Fault _ => False
  end.
Proof. vm_compute. repeat split. intros [|u]; discriminate. Qed.

(** ** What does not hold *)
(** A job that another thread runs can be freed; the thread goes on with it. *)
Theorem sched_kill_refuted : match run start [] [New [w 1; w 2] true; Call 0; Go 0; Kill 0; Go 0] with Fault Freed => True | _ => False end.
Proof. vm_compute. exact I. Qed.
Print Assumptions sched_kill_refuted.
(** A job may wait although there is a thread that calls the handler and runs nothing: another thread is in a turn of the first job. *)
Theorem sched_idle_refuted :
  match run start [] [New [w 1; w 2] true; Call 0; New [w 3] true; Call 1] with
  | Ok (s, h) => queue h = [0; 1] /\ inside h 1 = None /\ (forall t, inside h t <> Some 1) /\ pcs s 1 = Out /\ flag s = false
  | Fault _ => False
  end.
Proof. vm_compute. repeat split; try reflexivity. intros t. destruct t as [|t]; discriminate. Qed.
Print Assumptions sched_idle_refuted.
(** A job that is told to quit and suspended at once does another step after it is continued. *)
Theorem sched_quit_refuted :
  match run start [] [New [mkA 1 true true; w 2; w 3] true; Call 0; Go 0; Go 0; Go 0; Continue 0; Call 0; Go 0; Go 0; Go 0] with
  | Ok (_, h) => done h 0 = [mkA 1 true true; w 2] /\ hd_error h = Some (Returned 0 0)
  | Fault _ => False
  end.
Proof. vm_compute. repeat split. Qed.
Print Assumptions sched_quit_refuted.

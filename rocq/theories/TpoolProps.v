(** * Thread pool: the properties *)

From Coq Require Import List NArith Bool Lia Permutation.
From Coq Require Import ZifyBool ZifyNat ZifyN.
From Verif Require Import Base TpoolModel TpoolSpec TpoolProofs.
Import ListNotations.
Local Open Scope N_scope.

(** A history used below: three resources for two workers, one of which waits, is
    woken, and adds a resource itself; then the pool is told to end. *)
Definition day : list event :=
  [ Add None 11 NoFailure None; Run 0; Add None 12 NoFailure None; Run 1; Add None 13 NoFailure None;
    Finish 0; Run 0; Finish 1; Run 1; Add None 14 NoFailure (Some 1%nat); Run 1; Add (Some 1%nat) 15 NoFailure None; Info None ].
Definition evening : list event :=
  [ Return; Poll; Finish 1; Run 1; Finish 0; Run 0; Reap 1; Poll; Close; Reap 0 ].

Definition state_after (max : N) (es : list event) : option state :=
  match run (init max) es with Done st _ => Some st | _ => None end.
Definition out_after (max : N) (es : list event) : option (list output) :=
  match run (init max) es with Done _ out => Some out | _ => None end.

Example day_out : out_after 2 day =
  Some [Returned true; Took 0 11; Returned true; Took 1 12; Returned true; Finished 0 11; Took 0 13; Finished 1 12;
        Returned true; Took 1 14; Returned true; Told 2 1 3 1].
Proof. vm_compute. reflexivity. Qed.
Example evening_out : option_map (skipn 12) (out_after 2 (day ++ evening)) = Some [Finished 1 14; Finished 0 13; Dropped 15].
Proof. vm_compute. reflexivity. Qed.

(** ** Resources are handed out in the order they were added, each once; those not
    handed out are still queued or were released when the pool was freed. *)
Theorem tpool_fifo max es st out : run (init max) es = Done st out ->
  added es = took out ++ dropped out ++ queued st.
Proof. intros H. apply (fifo_run max) in H; [exact H|apply init_inv]. Qed.
Print Assumptions tpool_fifo.

Example day_fifo : option_map took (out_after 2 day) = Some [11; 12; 13; 14] /\ option_map queued (state_after 2 day) = Some [15] /\
  added day = [11; 12; 13; 14; 15].
Proof. vm_compute. repeat split. Qed.

(** ** A resource handed out is with one worker until its handler returns or it is
    released. *)
Theorem tpool_fate max es st out : run (init max) es = Done st out ->
  Permutation (took out) (finished out ++ freed out ++ in_hand st).
Proof. apply fates. Qed.
Print Assumptions tpool_fate.

Example day_fate : option_map finished (out_after 2 day) = Some [11; 12] /\ option_map in_hand (state_after 2 day) = Some [13; 14].
Proof. vm_compute. repeat split. Qed.

(** ** When the pool has been freed every resource was processed or released. *)
Theorem tpool_all_accounted max es st out : run (init max) es = Done st out -> Forall no_die es -> s_main st = Closed ->
  Permutation (added es) (finished out ++ freed out ++ dropped out).
Proof.
  intros H ND C. pose proof (init_inv max) as I0. pose proof (inv_run _ _ _ _ _ I0 H) as I.
  pose proof (tpool_fifo _ _ _ _ H) as F. pose proof (tpool_fate _ _ _ _ H) as P.
  assert (Q : queued st = []) by (unfold queued; now rewrite (hollow_run max es _ _ _ I0 ltac:(discriminate) H C)).
  assert (T : Forall tidy (s_workers st)) by (eapply tidy_run; [exact I0|constructor|exact ND|exact H]).
  assert (E : in_hand st = []).
  { pose proof (i_phase _ _ I) as Ph. rewrite C in Ph. unfold in_hand. clear - T Ph.
    induction (s_workers st) as [|w ws IH]; [reflexivity|]. cbn [flat_map]. rewrite count_cons in Ph. apply Forall_cons_iff in T. destruct T as [T1 T2].
    rewrite IH by (auto; lia). unfold member in Ph. unfold tidy in T1. destruct (w_place w); auto; try (cbn [b2n] in Ph; lia). now rewrite T1. }
  rewrite F, Q, app_nil_r. rewrite E, app_nil_r in P. rewrite P, app_assoc. apply Permutation_refl.
Qed.
Print Assumptions tpool_all_accounted.

Example evening_closed : option_map s_main (state_after 2 (day ++ evening)) = Some Closed /\ Forall no_die (day ++ evening) /\
  option_map finished (out_after 2 (day ++ evening)) = Some [11; 12; 14; 13] /\ option_map dropped (out_after 2 (day ++ evening)) = Some [15].
Proof. vm_compute. repeat split; repeat constructor. Qed.

(** ** The counters are exact: what the pool tells is the number of threads taking
    part and of those not busy, the main thread included, and of resources queued;
    never more than the maximum of workers take part. *)
Theorem tpool_counters max es st out who : run (init max) es = Done st out -> may_call st who = true ->
  step st (Info who) = Done st [Told max (1 + count idle_member (s_workers st)) (1 + count member (s_workers st))
                                      (N.of_nat (length (p_queue (s_pool st))))] /\
  count member (s_workers st) <= max.
Proof.
  intros H M. pose proof (inv_run _ _ _ _ _ (init_inv max) H) as I. pose proof (caller_open _ _ _ I M) as O.
  assert (NC : s_main st <> Closed) by (destruct O; congruence).
  assert (O1 : open st = 1) by (unfold open; destruct (s_main st); congruence).
  pose proof (i_counter _ _ I) as A. pose proof (i_idle _ _ I) as B. rewrite O1 in A, B. split.
  - cbn [step]. rewrite M. unfold resource_info. now rewrite (i_max _ _ I), A, B, (i_nres _ _ I NC).
  - pose proof (i_bound _ _ I) as L. unfold inc in L. pose proof (N.mod_le (max + 1) (2 ^ 32) ltac:(discriminate)). lia.
Qed.
Print Assumptions tpool_counters.

Example day_counters : option_map (fun st => (may_call st None, count idle_member (s_workers st), count member (s_workers st), queued st))
                                  (state_after 2 day) = Some (true, 0, 2, [15]).
Proof. vm_compute. reflexivity. Qed.

(** ** The pool's memory is not used after it is freed, and its assertions hold, if
    no handler ends its thread. *)
Theorem tpool_no_fault max es : Forall no_die es -> run (init max) es <> Fault.
Proof. apply (no_fault_run max); [apply init_inv|constructor]. Qed.
Print Assumptions tpool_no_fault.

(** ** No wake-up is lost: while a worker waits, there are at least as many workers
    on their way to the queue as there are resources in it. *)
Theorem tpool_no_lost_wakeup max es st out : run (init max) es = Done st out -> p_quit (s_pool st) = false ->
  (exists t w, get st t = Some w /\ w_place w = Waiting) ->
  N.of_nat (length (p_queue (s_pool st))) <= count ready (s_workers st).
Proof.
  intros H Q (t & w & G & W). assert (R : roused st) by (eapply roused_run; [apply init_inv| |exact H]; intros _ _; cbn; lia).
  apply R; [exact Q|]. apply (count_ge is_waiting _ t w G). unfold is_waiting. now rewrite W.
Qed.
Print Assumptions tpool_no_lost_wakeup.

(** Two workers have come to wait; a resource arrives: the other one still waits. *)
Definition noon : list event :=
  [ Add None 11 NoFailure None; Run 0; Add None 12 NoFailure None; Run 1; Finish 0; Run 0; Finish 1; Run 1; Add None 13 NoFailure (Some 0%nat) ].
Example noon_waits : option_map (fun st => (p_quit (s_pool st), map w_place (s_workers st), queued st, count ready (s_workers st))) (state_after 2 noon)
  = Some (false, [Locking false; Waiting], [13], 1).
Proof. vm_compute. reflexivity. Qed.

(** ** A queued resource always has a worker that takes it next: one that is on its
    way, or one that will come when its handler returns. *)
Theorem tpool_served max es st out d rest : 1 <= max -> max + 1 < 2 ^ 32 -> Forall smooth es ->
  run (init max) es = Done st out -> p_quit (s_pool st) = false -> queued st = d :: rest ->
  exists t, (exists st', run st [Run t] = Done st' [Took t d] /\ queued st' = rest) \/
            (exists st' x, run st [Finish t; Run t] = Done st' [Finished t x; Took t d] /\ queued st' = rest).
Proof.
  intros M1 M2 F H Q D. pose proof (inv_run _ _ _ _ _ (init_inv max) H) as I. eapply served; eauto.
  apply (attended_run max M1 M2) in H; auto; [now destruct H|apply init_inv|constructor|]. intros _ N. cbn in N. congruence.
Qed.
Print Assumptions tpool_served.

Example day_queued : Forall smooth day /\ option_map (fun st => (p_quit (s_pool st), queued st, map w_place (s_workers st))) (state_after 2 day)
  = Some (false, [15], [Processing; Processing]).
Proof. split; [repeat constructor|vm_compute; reflexivity]. Qed.

(** ** Whatever the workers do, in whatever order, after two steps for each resource
    and each worker the queue is empty and all of it was handed out in order. *)
Theorem tpool_drains max es st out es' st' out' : run (init max) es = Done st out -> p_quit (s_pool st) = false ->
  Forall own es' -> run st es' = Done st' out' ->
  (2 * (length (p_queue (s_pool st)) + length (s_workers st)) <= length es')%nat ->
  took out' = queued st /\ queued st' = [].
Proof.
  intros H Q F R L. pose proof (drained _ _ _ _ F Q R L) as E. pose proof (inv_run _ _ _ _ _ (init_inv max) H) as I.
  assert (E' : queued st' = []) by (unfold queued; now rewrite E). split; [|exact E'].
  pose proof (fifo_run max _ _ _ _ I R) as FF. rewrite E', app_nil_r in FF.
  assert (A : added es' = []) by (clear - F; induction F as [|e es O F IH]; [reflexivity|]; unfold added in *; cbn [flat_map]; rewrite IH; destruct e; try contradiction; reflexivity).
  assert (D : dropped out' = []) by (eapply own_drops; eauto). rewrite A, D, !app_nil_r in FF. now symmetry.
Qed.
Print Assumptions tpool_drains.

Definition drain : list event := [Finish 0; Run 0; Finish 1; Run 1; Wake 1; Run 1; Finish 0; Run 0; TimeOut 1; Run 1; Reap 1].
Example day_drains : option_map (fun st => (2 * (length (p_queue (s_pool st)) + length (s_workers st)))%nat) (state_after 2 day) = Some 6%nat /\
  Forall own drain /\ option_map (fun st => match run st drain with Done st' out' => (took out', queued st') | _ => ([], [1]) end) (state_after 2 day) = Some ([15], []).
Proof. split; [vm_compute; reflexivity|]. split; [repeat constructor|vm_compute; reflexivity]. Qed.

(** ** After the pool is told to end no resource is handed out, and each worker does
    at most four more steps. *)
Theorem tpool_quit_bound st es st' out : p_quit (s_pool st) = true -> Forall own es -> run st es = Done st' out ->
  took out = [] /\ (length es <= 4 * length (s_workers st))%nat.
Proof. intros Q F R. destruct (end_bound _ _ _ _ F Q R). auto. Qed.
Print Assumptions tpool_quit_bound.

(** ** When no worker has anything left to do, the main thread frees the pool. *)
Theorem tpool_quit_ends max es st out : Forall smooth es -> run (init max) es = Done st out -> s_main st = Polling ->
  (forall e st' out', own e -> step st e <> Done st' out') ->
  exists st', run st [Poll; Close] = Done st' (map Dropped (p_queue (s_pool st))) /\ s_main st' = Closed.
Proof.
  intros F H M D. pose proof (init_inv max) as I0. pose proof (inv_run _ _ _ _ _ I0 H) as I. apply (finale max); auto.
  assert (T : Forall tidy (s_workers st)).
  { eapply tidy_run; [exact I0|constructor| |exact H]. eapply Forall_impl; [|exact F]. apply smooth_no_die. }
  assert (B : Forall born (s_workers st)) by (eapply born_run; [exact I0|constructor|exact F|exact H]).
  destruct (all_gone st) as [(t & w & E & G)|G]; [|exact G].
  assert (BW : born w) by (rewrite Forall_forall in B; apply B; eapply nth_error_In; eauto).
  destruct (can_go max st t w I T E BW G) as (e & s1 & o1 & O & S). exfalso. eapply D; eauto.
Qed.
Print Assumptions tpool_quit_ends.

(** ** So the pool can always be ended, and then releases what is queued. *)
Theorem tpool_shutdown max es st out : Forall smooth es -> run (init max) es = Done st out -> s_main st = Polling ->
  exists es' st' out', run st es' = Done st' out' /\ s_main st' = Closed /\ took out' = [] /\ dropped out' = queued st.
Proof.
  intros F H M. pose proof (init_inv max) as I0. pose proof (inv_run _ _ _ _ _ I0 H) as I. eapply (ending max); eauto.
  - eapply tidy_run; [exact I0|constructor| |exact H]. eapply Forall_impl; [|exact F]. apply smooth_no_die.
  - eapply born_run; [exact I0|constructor|exact F|exact H].
Qed.
Print Assumptions tpool_shutdown.

Example evening_ends : Forall smooth (day ++ [Return; Poll; Finish 1; Run 1; Finish 0; Run 0; Reap 1; Reap 0]) /\
  option_map (fun st => (s_main st, map w_place (s_workers st), queued st)) (state_after 2 (day ++ [Return; Poll; Finish 1; Run 1; Finish 0; Run 0; Reap 1; Reap 0]))
  = Some (Polling, [Gone; Gone], [15]).
Proof. split; [repeat constructor|vm_compute; reflexivity]. Qed.

(** ** What does not hold *)

(** With a maximum of 0, or of 2^32 - 1, resources are accepted and no worker is
    ever made. *)
Lemma never_a_worker max : max = 0 \/ max = 2 ^ 32 - 1 -> forall es st out, run (init max) es = Done st out -> s_workers st = [] /\ took out = [].
Proof.
  intros M. assert (Z : inc max <= 1) by (destruct M; subst; cbn; lia).
  assert (G : forall es st st' out, Inv max st -> s_workers st = [] -> run st es = Done st' out -> s_workers st' = [] /\ took out = []).
  { induction es as [|e es IH]; intros st st' out I E H; cbn [run] in H.
    - now injection H as <- <-.
    - destruct (step st e) as [s1 o1| |] eqn:S; try discriminate. destruct (run s1 es) as [s2 o2| |] eqn:RR; try discriminate.
      injection H as <- <-. enough (K : s_workers s1 = [] /\ took o1 = []).
      { destruct K as [K1 K2]. destruct (IH s1 _ _ (inv_step _ _ _ _ _ I S) K1 RR) as [A B]. split; [exact A|].
        unfold took in *. now rewrite flat_map_app, K2, B. }
      assert (NW : forall t e, worker_step st t e <> Done s1 o1) by (intros t e0; unfold worker_step, get; rewrite E; destruct t; discriminate).
      destruct e; cbn [step] in S; try (exfalso; eapply NW; exact S).
      + destruct (may_call st who) eqn:MC; [|discriminate]. pose proof (caller_open _ _ _ I MC) as O.
        assert (C : p_counter (s_pool st) <? inc (p_max (s_pool st)) = false).
        { rewrite (i_max _ _ I), (i_counter _ _ I), E. unfold open. destruct O as [O|O]; rewrite O; apply N.ltb_ge; cbn; lia. }
        unfold resource_add in S. cbn [p_idle p_counter p_max] in S. rewrite C, andb_false_r, E in S.
        destruct f; [| now injection S as <- <-| |]; (destruct (signal [] woken) as [ws|] eqn:SG; [|discriminate]; injection S as <- <-; cbn [s_workers];
          apply signal_cases in SG; destruct SG as [[-> _]|(t & w & X & _)]; [split; reflexivity|destruct t; discriminate]).
      + destruct (may_call st who); [|discriminate]. now injection S as <- <-.
      + destruct (may_call st who); [|discriminate]. now injection S as <- <-.
      + destruct (s_main st); try discriminate. now injection S as <- <-.
      + destruct (s_main st); try discriminate. injection S as <- <-. unfold poll. destruct (_ <=? 1); cbn [s_workers]; [now rewrite E|now rewrite E].
      + destruct (s_main st) eqn:MM; try discriminate. rewrite (close_ok max st I MM) in S. injection S as <- <-. split; [exact E|].
        clear. induction (p_queue (s_pool st)) as [|x q IHq]; [reflexivity|exact IHq]. }
  intros es st out H. eapply G; [apply init_inv| |exact H]. reflexivity.
Qed.

Theorem tpool_served_zero_refuted : exists max, max <= 2 ^ 32 - 1 /\
  (forall es st out, run (init max) es = Done st out -> took out = []) /\
  exists es st out, run (init max) es = Done st out /\ out = [Returned true] /\ queued st = [7].
Proof.
  exists 0. split; [cbn; lia|]. split.
  - intros es st out H. apply (never_a_worker 0 (or_introl eq_refl) es st out H).
  - exists [Add None 7 NoFailure None]. eexists. eexists. split; [vm_compute; reflexivity|]. split; reflexivity.
Qed.
Theorem tpool_served_wrap_refuted : exists max, 1 <= max <= 2 ^ 32 - 1 /\
  (forall es st out, run (init max) es = Done st out -> took out = []) /\
  exists es st out, run (init max) es = Done st out /\ out = [Returned true] /\ queued st = [7].
Proof.
  exists (2 ^ 32 - 1). split; [cbn; lia|]. split.
  - intros es st out H. apply (never_a_worker (2 ^ 32 - 1) (or_intror eq_refl) es st out H).
  - exists [Add None 7 NoFailure None]. eexists. eexists. split; [vm_compute; reflexivity|]. split; reflexivity.
Qed.
Print Assumptions tpool_served_zero_refuted.
Print Assumptions tpool_served_wrap_refuted.

(** If a thread cannot be made the member made for it stays counted: the resource is
    not served although a worker could be made later, and the pool does not end. *)
Theorem tpool_no_thread_refuted : exists es st out, run (init 1) es = Done st out /\ s_main st = Polling /\
  (forall e st' out', own e -> step st e <> Done st' out') /\ (forall st' out', run st [Poll; Close] <> Done st' out').
Proof.
  exists [Add None 7 NoThread None; Return]. eexists. eexists. split; [vm_compute; reflexivity|]. split; [reflexivity|]. split.
  - intros e st' out' O. destruct e; try contradiction; cbn [step]; unfold worker_step, get; cbn [s_workers];
      destruct t as [|[|t]]; cbn; discriminate.
  - intros st' out'. vm_compute. discriminate.
Qed.
Print Assumptions tpool_no_thread_refuted.

(** If there is no memory for the member, adding fails but the resource stays queued,
    and may be handed to a worker although the caller will release it. *)
Theorem tpool_failed_add_refuted : exists es st out, run (init 2) es = Done st out /\
  out = [Returned true; Took 0 7; Returned false; Finished 0 7; Took 0 8].
Proof.
  exists [Add None 7 NoFailure None; Run 0; Add None 8 NoMember None; Finish 0; Run 0]. eexists. eexists. split; [vm_compute; reflexivity|reflexivity].
Qed.
Print Assumptions tpool_failed_add_refuted.

(** If a handler ends its thread, a queued resource can be left without a worker, *)
Theorem tpool_die_refuted : exists es st out, run (init 1) es = Done st out /\ p_quit (s_pool st) = false /\ queued st = [8] /\
  (forall e st' out', own e -> step st e <> Done st' out').
Proof.
  exists [Add None 7 NoFailure None; Run 0; Add None 8 NoFailure None; Die 0; Reap 0]. eexists. eexists. split; [vm_compute; reflexivity|].
  split; [reflexivity|]. split; [reflexivity|].
  intros e st' out' O. destruct e; try contradiction; cbn [step]; unfold worker_step, get; cbn [s_workers]; destruct t as [|[|t]]; cbn; discriminate.
Qed.
Print Assumptions tpool_die_refuted.

(** and the pool can be freed before the thread releases its resource. *)
Theorem tpool_die_fault_refuted : exists es, run (init 1) es = Fault.
Proof. exists [Add None 7 NoFailure None; Run 0; Return; Die 0; Poll; Close; Reap 0]. vm_compute. reflexivity. Qed.
Print Assumptions tpool_die_fault_refuted.

(** A NULL resource is accepted and vanishes. *)
Theorem tpool_null_refuted : exists es st out, run (init 1) es = Done st out /\ out = [Returned true] /\ p_queue (s_pool st) = [] /\ s_main st = InHandler.
Proof. exists [Add None 0 NoFailure None; Run 0]. eexists. eexists. split; [vm_compute; reflexivity|]. repeat split. Qed.
Print Assumptions tpool_null_refuted.

(** * Theorems about watched file descriptors *)
Require Import List Arith NArith Bool Lia.
Require Import Verif.Base Verif.EventModel Verif.EventSpec Verif.EventProofs.
Import ListNotations.

(** One thread dispatches; any threads, and the handlers, set and clear events at any time; the system reports what it wants of what it watches.
    No memory is used after it was freed. *)
Theorem event_no_fault_partial : forall bound ls, Forall solo ls -> run bound event_new [] ls <> Fault.
Proof.
  intros bound ls S E. assert (W := whole_run false false bound ls [] event_new (whole_new _ _ _) S ltac:(discriminate) ltac:(discriminate)). now rewrite E in W.
Qed.
Print Assumptions event_no_fault_partial.
(** Handlers are called only for what was reported, once for each report, and the handler is the one that was given last; timeouts come in order and in time. *)
Theorem event_calls_partial : forall bound ls s h, Forall solo ls -> run bound event_new [] ls = Next s h -> proper bound h.
Proof.
  intros bound ls s h S E. assert (W := whole_run false false bound ls [] event_new (whole_new _ _ _) S ltac:(discriminate) ltac:(discriminate)). rewrite E in W. apply W.
Qed.
Print Assumptions event_calls_partial.
(** An event set for one shot, when none was pending, leads to one call at most until it is set again; not for errors. *)
Theorem event_oneshot_partial : forall bound ls s h, Forall solo ls -> run bound event_new [] ls = Next s h -> limited h.
Proof.
  intros bound ls s h S E. assert (W := whole_run false false bound ls [] event_new (whole_new _ _ _) S ltac:(discriminate) ltac:(discriminate)). rewrite E in W. apply W.
Qed.
Print Assumptions event_oneshot_partial.
(** Nothing that was reported is forgotten, if the lock is free whenever the dispatcher wants it. *)
Theorem event_thorough_partial : forall bound ls s h, Forall solo ls -> Forall undisturbed ls -> run bound event_new [] ls = Next s h -> thorough h.
Proof.
  intros bound ls s h S U E. assert (W := whole_run true false bound ls [] event_new (whole_new _ _ _) S (fun _ => U) ltac:(discriminate)). rewrite E in W. now apply W.
Qed.
Print Assumptions event_thorough_partial.

(** In particular: *)
Definition no_set (fd : nat) (e : event) : Prop := match e with WasSet fd' _ _ _ _ _ | Cleared fd' => fd' <> fd | _ => True end.
Lemma cleared_stays : forall bound fd h1 h2, Forall (no_set fd) h2 -> proper bound (h2 ++ Cleared fd :: h1) ->
  due (h2 ++ Cleared fd :: h1) fd = None /\ (forall k, registered (h2 ++ Cleared fd :: h1) fd k = None) /\ forall e, In e h2 -> match e with Called fd' _ _ | Expired fd' _ _ => fd' <> fd | _ => True end.
Proof.
  intros bound fd h1 h2 F. induction F as [|x h2 X F IH]; cbn [app]; intros P.
  - cbn. unfold is. rewrite Nat.eqb_refl. split; [reflexivity|]. split; [reflexivity|intros e []].
  - destruct P as (A & P). destruct (IH P) as (I1 & I2 & I3). clear IH P.
    assert (D : due (x :: h2 ++ Cleared fd :: h1) fd = None).
    { destruct x; cbn [due no_set] in *; unfold is; try exact I1; destruct (Nat.eqb_spec fd0 fd); try congruence; reflexivity. }
    assert (R : forall k, registered (x :: h2 ++ Cleared fd :: h1) fd k = None).
    { intros k'. destruct x; cbn [registered no_set] in *; unfold is; try apply I2; destruct (Nat.eqb_spec fd0 fd); try congruence; cbn [andb]; apply I2. }
    split; [exact D|]. split; [exact R|]. intros e [<-|In']; [|now apply I3]. destruct x; try exact I; cbn [allowed] in A.
    + intros ->. destruct A as (A & _). rewrite I2 in A. discriminate.
    + intros ->. destruct A as (_ & t & A & _). congruence.
Qed.
(** Once a descriptor is cleared no handler is called for it, be it reported or timed out, until something is set again. *)
Theorem event_cleared_partial : forall bound ls s h1 h2 fd, Forall solo ls -> run bound event_new [] ls = Next s (h2 ++ Cleared fd :: h1) -> Forall (no_set fd) h2 ->
  forall e, In e h2 -> match e with Called fd' _ _ | Expired fd' _ _ => fd' <> fd | _ => True end.
Proof. intros bound ls s h1 h2 fd S E F. apply (cleared_stays bound fd h1 h2 F). apply (event_calls_partial _ _ _ _ S E). Qed.
Print Assumptions event_cleared_partial.
Definition is_call (fd : nat) (k : kind) (e : event) : bool := match e with Called fd' k' _ => Nat.eqb fd' fd && kind_eqb k' k | _ => false end.
Definition calls (fd : nat) (k : kind) (h : list event) : nat := length (filter (is_call fd k) h).
Lemma shots_left : forall fd k f a t hd h1 h2, k <> Err -> f k = true -> pending h1 fd k = false -> Forall (no_set fd) h2 -> limited (h2 ++ WasSet fd f true a t hd :: h1) ->
  calls fd k h2 <= 1 /\ shots (h2 ++ WasSet fd f true a t hd :: h1) fd k = Some (1 - calls fd k h2).
Proof.
  intros fd k f a t hd h1 h2 N Fk P F. unfold calls. induction F as [|x h2 X F IH]; intros L.
  - cbn. unfold is. rewrite Nat.eqb_refl, Fk, P. cbn. auto.
  - cbn [app limited] in L. destruct L as (Lx & L). destruct (IH L) as (I1 & I2). clear IH L. cbn [app].
    destruct x; cbn [filter is_call shots no_set] in *; unfold is; try (split; [exact I1|exact I2]); try (destruct (Nat.eqb_spec fd0 fd); [congruence|]; split; [exact I1|exact I2]).
    destruct (Nat.eqb_spec fd0 fd); cbn [andb]; [|split; [exact I1|exact I2]]. destruct (kind_eqb k0 k) eqn:K; [|split; [exact I1|exact I2]]. subst fd0. apply kind_eqb_eq in K as ->.
    destruct Lx as [Lx|Lx]; [congruence|]. rewrite I2 in *. cbn [length option_map]. destruct (length (filter (is_call fd k) h2)) as [|n]; [cbn; auto|]. assert (n = 0) as -> by lia. elim Lx. reflexivity.
Qed.
Theorem event_once_partial : forall bound ls s h1 h2 fd f a t hd k, Forall solo ls -> run bound event_new [] ls = Next s (h2 ++ WasSet fd f true a t hd :: h1) -> k <> Err ->
  f k = true -> pending h1 fd k = false -> Forall (no_set fd) h2 -> calls fd k h2 <= 1.
Proof. intros bound ls s h1 h2 fd f a t hd k S E N Fk P F. apply (shots_left fd k f a t hd h1 h2 N Fk P F). apply (event_oneshot_partial _ _ _ _ S E). Qed.
Print Assumptions event_once_partial.

(** If nothing is set for one shot, every kind that is to be watched is: when the system is asked and it has such an event, the handler is called next. *)
Lemma delivery : forall bound h s fd k hd, whole true true bound h s -> pcs s 0 = AtPoll -> wanted h fd k = true -> registered h fd k = Some hd ->
  exists s', run bound s h [Poll 0 [(fd, only k)]; Go 0] = Next s' (Called fd k hd :: Served fd :: Reported fd k :: Polled :: h).
Proof.
  intros bound h s fd k hd (I & Ca) P W R. specialize (Ca eq_refl). unfold calm in Ca. rewrite P in Ca. assert (I' := I). destruct I' as ((C1 & C2 & C3 & C4 & C5) & _). specialize (C4 eq_refl).
  destruct (C5 fd) as (G & _ & Wa & _). rewrite P in G. cbn [busy_at] in G. specialize (Wa eq_refl).
  destruct (descs s fd) as [d|] eqn:D; cbn [good] in G; [|destruct G as (_ & _ & _ & _ & G); destruct (G k) as (_ & _ & _ & X); congruence].
  destruct G as (Gp & _ & _ & Gw & Gd & Gc). destruct (is_clear d) eqn:Cl; [destruct Gc as (_ & _ & Gc); destruct (Gc k) as (_ & _ & _ & X); congruence|].
  destruct Gc as (_ & Gk). destruct (Wa d eq_refl Cl) as (_ & Wk & m & Ew & Em).
  assert (Ad : in_active d = false). { destruct (in_active d) eqn:Ad; [|reflexivity]. assert (Y : In (fd, gen d) (active s)) by (apply C1; exists d; auto). rewrite Ca in Y. destruct Y. }
  assert (Ac : forall k', act d k' = false).
  { intros k'. destruct (act d k') eqn:A; [|reflexivity]. destruct (Gk k') as (_ & X). destruct (X A) as [Y|Y]; [|discriminate]. rewrite (pending_calm true bound h s I P Ca) in Y. discriminate. }
  assert (Mk : m k = true) by (rewrite Em; destruct (Wk k) as (_ & ->); exact W).
  destruct (report_local s fd (only k) (mkW m false true (gen d)) d Ew D eq_refl Cl) as [S|(s1 & S & _ & _ & _ & (d1 & w1 & L & D1 & W1) & O & P1 & B1 & A1)].
  { exfalso. unfold report in S. rewrite Ew in S. cbn [armed mask andb] in S.
    assert (X : (negb (only k Recv) || m Recv) && (negb (only k Send) || m Send) = true) by (destruct k; cbn; rewrite ?Mk; reflexivity). rewrite X in S. cbn [once_only data_ptr] in S. unfold deref in S. cbn [fst snd] in S. rewrite D, Nat.eqb_refl, Cl in S.
    destruct (note _ _ _ _) as [s2 x2]. destruct (descs s2 fd) as [d2|]; [|discriminate]. destruct (in_active d2 || in_process d2); discriminate. }
  rewrite Ad, Gp, Ca in A1. cbn [orb app] in A1. destruct (lreport_waiting d (mkW m false true (gen d)) (only k) Ad Gp) as (d2 & w2 & E2 & F & B7 & B8 & _). rewrite L in E2. injection E2 as <- _.
  destruct F as (F1 & _ & _ & _ & F5 & F6). cbn [run step]. rewrite P. cbn [reports existsb]. rewrite S. replace (goto s1 0 AtActive) with (at_pc s1 0 AtActive) by (unfold goto; rewrite B1, C4; reflexivity). cbn [run step at_pc pcs]. rewrite upd_same. unfold go. cbn [at_pc active].
  rewrite A1. unfold deref. cbn [fst snd at_pc descs]. rewrite D1, F1, Nat.eqb_refl.
  unfold given_up. cbn [with_active at_pc broken with_marks with_deadline is_clear]. rewrite B1, C4, F5, Cl. cbn [orb].
  assert (Ak : forall k', act d1 k' = kind_eqb k k') by (intros k'; destruct (B8 k') as (-> & _); rewrite Ac; reflexivity).
  assert (Hk : hand d1 k = Some hd) by (rewrite F6; destruct (Gk k) as (-> & _); exact R).
  destruct k; cbn [stages with_marks with_deadline act hand]; rewrite ?Ak; cbn [kind_eqb]; rewrite ?Hk; eexists; reflexivity.
Qed.
Theorem event_delivery_partial : forall bound ls s h fd k hd, Forall solo ls -> Forall undisturbed ls -> Forall persistent ls -> run bound event_new [] ls = Next s h -> pcs s 0 = AtPoll ->
  wanted h fd k = true -> registered h fd k = Some hd ->
  exists s', run bound s h [Poll 0 [(fd, only k)]; Go 0] = Next s' (Called fd k hd :: Served fd :: Reported fd k :: Polled :: h).
Proof.
  intros bound ls s h fd k hd S U Pe E. assert (W := whole_run true true bound ls [] event_new (whole_new _ _ _) S (fun _ => U) (fun _ => Pe)). rewrite E in W. now apply delivery.
Qed.
Print Assumptions event_delivery_partial.

(** ** Examples *)
(** What is called, and when the system is asked. *)
Definition seen (h : list event) : list event := filter (fun e => match e with WasSet _ _ _ _ _ _ | Reported _ _ => false | _ => true end) h.
Definition both : kset := fun k => match k with Err => false | _ => true end.
(** Two descriptors; the first is for one shot and its handler clears the second, the events of which were reported with it; the third times out. *)
Definition ex_schedule : list label :=
  [Set_ 0 (only Recv) true false (After 5 0) (Some 10); Set_ 1 both false false Unlimited (Some 11); Set_ 2 (only Send) false false (After 1 0) (Some 12); SetTimeoutHandler 2 (Some 13);
   Start 0; Go 0; Clock 0 10; Look 0 2; Poll 0 [(0, only Recv); (1, both)]; Go 0; Clr 1; Return_ 0; Go 0; Clock 0 2000; Look 0 2; Set_ 2 (only Recv) false true (After 1 2000) (Some 14); Return_ 0; Look 0 2;
   Poll 0 [(2, both)]; Go 0; Clr 2; Return_ 0; Go 0; Clock 0 6000; NoTimeout 0].
Example ex_event : Forall solo ex_schedule /\ Forall undisturbed ex_schedule /\
  match run 3 event_new [] ex_schedule with
  | Next s h => seen h = [NoneDue 6000; Cleared 2; Called 2 Recv 14; Served 2; Polled; NoneDue 2000; Expired 2 (Some 13) 2000; Cleared 1; Called 0 Recv 10; Served 0; Polled; NoneDue 10; TimeoutHandler 2 (Some 13)] /\ pcs s 0 = AtPoll
  | _ => False
  end.
Proof. split; [repeat constructor|]. split; [repeat constructor|]. vm_compute. auto. Qed.
(** The one shot of the first descriptor, and nothing of the second. *)
Example ex_once : match run 3 event_new [] ex_schedule with
  | Next s h => calls 0 Recv h = 1 /\ shots h 0 Recv = Some 0 /\ calls 1 Recv h = 0 /\ registered h 2 Recv = None
  | _ => False
  end.
Proof. vm_compute. auto. Qed.
Definition ex_lasting : list label :=
  [Set_ 0 (only Recv) false false Unlimited (Some 10); Set_ 0 (only Send) false true Unmodified (Some 11); Start 0; Go 0; Clock 0 10; NoTimeout 0; Poll 0 [(0, both)]; Go 0; Return_ 0; Return_ 0; Go 0; Clock 0 20; NoTimeout 0].
Example ex_delivery : Forall solo ex_lasting /\ Forall undisturbed ex_lasting /\ Forall persistent ex_lasting /\
  match run 3 event_new [] ex_lasting with Next s h => pcs s 0 = AtPoll /\ wanted h 0 Recv = true /\ wanted h 0 Send = true /\ registered h 0 Recv = Some 10 /\ calls 0 Send h = 1 | _ => False end.
Proof. split; [repeat constructor|]. split; [repeat constructor|]. split; [repeat constructor|]. vm_compute. auto 10. Qed.

(** ** What is not so *)
(** A report that the dispatcher gets to see while another thread holds the lock: it is forgotten if the descriptor has a timeout. The pass over the
    timeouts takes it off the list of the active ones though it has not timed out, and as it was for one shot the system reports it no more. *)
Theorem event_thorough_refuted : ~ (forall bound ls s h, Forall solo ls -> Forall (fun l => l <> Break) ls -> run bound event_new [] ls = Next s h -> thorough h).
Proof.
  intros H. pose (ls := [Set_ 0 (only Recv) true false (After 1000 0) (Some 10); Start 0; Go 0; Clock 0 0; Look 0 0; Poll 0 [(0, only Recv)]; Busy 0; Clock 0 1; Look 0 0; Idle 0]). specialize (H 1 ls).
  assert (X : match run 1 event_new [] ls with Next s h => active s = [] /\ pending (tl h) 0 Recv = true /\ registered h 0 Recv = Some 10 /\ hd (NoneDue 0) h = Polled /\ report s 0 (only Recv) = Stuck | _ => False end) by (vm_compute; repeat split).
  destruct (run 1 event_new [] ls) as [| | |s h]; try contradiction. destruct X as (_ & X & _ & X2 & _). specialize (H s h ltac:(repeat constructor) ltac:(repeat (apply Forall_cons; [discriminate|]); apply Forall_nil) eq_refl).
  destruct h as [|e h]; [discriminate|]. cbn in X2. subst e. destruct H as (H & _). cbn in X. rewrite (H 0 Recv) in X. discriminate.
Qed.
Print Assumptions event_thorough_refuted.
(** An event is to be watched without M_EV_ONESHOT, and another one is appended with it: the first report disarms both, and the first is not reported again. *)
Theorem event_delivery_refuted : ~ (forall bound ls s h fd k hd, Forall solo ls -> Forall undisturbed ls -> run bound event_new [] ls = Next s h -> pcs s 0 = AtPoll ->
  In (WasSet fd (only k) false false Unlimited (Some hd)) h -> wanted h fd k = true -> registered h fd k = Some hd -> step bound s (Poll 0 [(fd, only k)]) <> Stuck).
Proof.
  intros H. pose (ls := [Set_ 0 (only Recv) false false Unlimited (Some 10); Set_ 0 (only Send) true true Unmodified (Some 11); Start 0; Go 0; Clock 0 0; NoTimeout 0; Poll 0 [(0, only Recv)]; Go 0; Return_ 0; Go 0; Clock 0 1; NoTimeout 0]). specialize (H 1 ls).
  assert (X : match run 1 event_new [] ls with Next s h => pcs s 0 = AtPoll /\ last h Polled = WasSet 0 (only Recv) false false Unlimited (Some 10) /\ h <> [] /\ wanted h 0 Recv = true /\ registered h 0 Recv = Some 10 /\ step 1 s (Poll 0 [(0, only Recv)]) = Stuck | _ => False end)
    by (vm_compute; repeat split; discriminate).
  destruct (run 1 event_new [] ls) as [| | |s h]; try contradiction. destruct X as (X1 & X2 & X3 & X4 & X5 & X6). apply (H s h 0 Recv 10 ltac:(repeat constructor) ltac:(repeat constructor) eq_refl X1); auto.
  rewrite <- X2. clear - X3. induction h as [|e h IH]; [congruence|]. destruct h as [|e' h]; [now left|]. right. apply IH. discriminate.
Qed.
Print Assumptions event_delivery_refuted.
(** The same if an event is first set without any kind: those set later are not watched, as the descriptor is not known to the system. *)
Theorem event_first_empty_refuted : ~ (forall bound ls s h fd k hd, Forall solo ls -> Forall undisturbed ls -> Forall (fun l => match l with Set_ _ _ o _ _ _ => o = false | _ => True end) ls -> run bound event_new [] ls = Next s h ->
  pcs s 0 = AtPoll -> wanted h fd k = true -> registered h fd k = Some hd -> step bound s (Poll 0 [(fd, only k)]) <> Stuck).
Proof.
  intros H. pose (ls := [Set_ 0 none_of false false Unlimited None; Set_ 0 (only Recv) false false Unlimited (Some 10); Start 0; Go 0; Clock 0 0; NoTimeout 0]). specialize (H 1 ls).
  assert (X : match run 1 event_new [] ls with Next s h => pcs s 0 = AtPoll /\ wanted h 0 Recv = true /\ registered h 0 Recv = Some 10 /\ step 1 s (Poll 0 [(0, only Recv)]) = Stuck | _ => False end) by (vm_compute; repeat split).
  destruct (run 1 event_new [] ls) as [| | |s h]; try contradiction. destruct X as (X1 & X2 & X3 & X4). exact (H s h 0 Recv 10 ltac:(repeat constructor) ltac:(repeat constructor) ltac:(repeat constructor) eq_refl X1 X2 X3 X4).
Qed.
Print Assumptions event_first_empty_refuted.
(** And an event set for one shot stays so when it is appended without M_EV_ONESHOT. *)
Theorem event_append_keeps_oneshot_refuted : ~ (forall bound ls s h2 h1 fd k hd, Forall solo ls -> Forall undisturbed ls -> run bound event_new [] ls = Next s (h2 ++ WasSet fd (only k) false true Unmodified (Some hd) :: h1) -> Forall (no_set fd) h2 ->
  pcs s 0 = AtPoll -> step bound s (Poll 0 [(fd, only k)]) <> Stuck).
Proof.
  intros H. pose (ls := [Set_ 0 (only Recv) true false Unlimited (Some 10); Set_ 0 (only Recv) false true Unmodified (Some 10); Start 0; Go 0; Clock 0 0; NoTimeout 0; Poll 0 [(0, only Recv)]; Go 0; Return_ 0; Go 0; Clock 0 1; NoTimeout 0]).
  pose (h2 := [NoneDue 1; Called 0 Recv 10; Served 0; Reported 0 Recv; Polled; NoneDue 0]). specialize (H 1 ls).
  assert (X : match run 1 event_new [] ls with Next s h => h = h2 ++ WasSet 0 (only Recv) false true Unmodified (Some 10) :: [WasSet 0 (only Recv) true false Unlimited (Some 10)] /\ pcs s 0 = AtPoll /\ step 1 s (Poll 0 [(0, only Recv)]) = Stuck | _ => False end)
    by (vm_compute; repeat split).
  destruct (run 1 event_new [] ls) as [| | |s h]; try contradiction. destruct X as (-> & X2 & X3). exact (H s h2 _ 0 Recv 10 ltac:(repeat constructor) ltac:(repeat constructor) eq_refl ltac:(repeat constructor) X2 X3).
Qed.
Print Assumptions event_append_keeps_oneshot_refuted.
(** Errors set for one shot are not: the system always reports them. *)
Theorem event_oneshot_error_refuted : ~ (forall bound ls s h1 h2 fd f a t hd k, Forall solo ls -> Forall undisturbed ls -> run bound event_new [] ls = Next s (h2 ++ WasSet fd f true a t hd :: h1) ->
  f k = true -> pending h1 fd k = false -> Forall (no_set fd) h2 -> calls fd k h2 <= 1).
Proof.
  intros H. pose (ls := [Set_ 0 (only Err) true false Unlimited (Some 10); Start 0; Go 0; Clock 0 0; NoTimeout 0; Poll 0 [(0, only Err)]; Go 0; Return_ 0; Go 0; Clock 0 1; NoTimeout 0; Poll 0 [(0, only Err)]; Go 0]).
  pose (h2 := [Called 0 Err 10; Served 0; Reported 0 Err; Polled; NoneDue 1; Called 0 Err 10; Served 0; Reported 0 Err; Polled; NoneDue 0]). specialize (H 1 ls).
  assert (X : match run 1 event_new [] ls with Next s h => h = h2 ++ [WasSet 0 (only Err) true false Unlimited (Some 10)] | _ => False end) by (vm_compute; reflexivity).
  destruct (run 1 event_new [] ls) as [| | |s h]; try contradiction. subst h. specialize (H s [] h2 0 (only Err) false Unlimited (Some 10) Err ltac:(repeat constructor) ltac:(repeat constructor) eq_refl eq_refl eq_refl ltac:(repeat constructor)).
  vm_compute in H. lia.
Qed.
Print Assumptions event_oneshot_error_refuted.
(** And an event set for one shot while one is pending leads to two calls. *)
Theorem event_oneshot_pending_refuted : ~ (forall bound ls s h1 h2 fd f a t hd k, Forall solo ls -> Forall undisturbed ls -> run bound event_new [] ls = Next s (h2 ++ WasSet fd f true a t hd :: h1) ->
  k <> Err -> f k = true -> Forall (no_set fd) h2 -> calls fd k h2 <= 1).
Proof.
  intros H. pose (ls := [Set_ 0 (only Recv) false false Unlimited (Some 10); Start 0; Go 0; Clock 0 0; NoTimeout 0; Poll 0 [(0, only Recv)]; Set_ 0 (only Recv) true false Unlimited (Some 11); Go 0; Return_ 0; Go 0; Clock 0 1; NoTimeout 0; Poll 0 [(0, only Recv)]; Go 0]).
  pose (h2 := [Called 0 Recv 11; Served 0; Reported 0 Recv; Polled; NoneDue 1; Called 0 Recv 11; Served 0]). specialize (H 1 ls).
  assert (X : match run 1 event_new [] ls with Next s h => h = h2 ++ WasSet 0 (only Recv) true false Unlimited (Some 11) :: [Reported 0 Recv; Polled; NoneDue 0; WasSet 0 (only Recv) false false Unlimited (Some 10)] | _ => False end) by (vm_compute; reflexivity).
  destruct (run 1 event_new [] ls) as [| | |s h]; try contradiction. subst h. specialize (H s _ h2 0 (only Recv) false Unlimited (Some 11) Recv ltac:(repeat constructor) ltac:(repeat constructor) eq_refl ltac:(discriminate) eq_refl ltac:(repeat constructor)).
  vm_compute in H. lia.
Qed.
Print Assumptions event_oneshot_pending_refuted.
(** A handler for errors is called though the descriptor was set anew without M_EV_ERROR. *)
Theorem event_calls_wanted_refuted : ~ (forall bound ls s h fd k hd, Forall solo ls -> Forall undisturbed ls -> Forall persistent ls -> run bound event_new [] ls = Next s (Called fd k hd :: h) -> wanted h fd k = true).
Proof.
  intros H. pose (ls := [Set_ 0 (fun _ => true) false false Unlimited (Some 10); Set_ 0 (only Recv) false false Unlimited (Some 11); Start 0; Go 0; Clock 0 0; NoTimeout 0; Poll 0 [(0, only Err)]; Go 0]). specialize (H 1 ls).
  assert (X : match run 1 event_new [] ls with Next s h => hd Polled h = Called 0 Err 10 /\ wanted (tl h) 0 Err = false | _ => False end) by (vm_compute; repeat split).
  destruct (run 1 event_new [] ls) as [| | |s h]; try contradiction. destruct X as (X & Y). destruct h as [|e h]; [discriminate|]. cbn in X, Y. subst e.
  rewrite (H s h 0 Err 10 ltac:(repeat constructor) ltac:(repeat constructor) ltac:(repeat constructor) eq_refl) in Y. discriminate.
Qed.
Print Assumptions event_calls_wanted_refuted.
(** Two dispatchers: a handler sets the timeout of its own descriptor, the other thread lets it time out, and says that the descriptor is not in use;
    the handler clears it, and it is freed. *)
Theorem event_no_fault_refuted : ~ (forall bound ls, run bound event_new [] ls <> Fault).
Proof.
  intros H. apply (H 1 [Set_ 0 (only Recv) false false Unlimited (Some 10); Start 0; Go 0; Clock 0 0; NoTimeout 0; Poll 0 [(0, only Recv)]; Go 0; Set_ 0 (only Recv) false true (After 0 1) (Some 10);
    Start 1; Go 1; Clock 1 5; Look 1 0; Clr 0; Return_ 0]). vm_compute. reflexivity.
Qed.
Print Assumptions event_no_fault_refuted.

(** * Theorems about timers *)
Require Import List Arith NArith Bool Lia.
Require Import Verif.Base Verif.TimerModel Verif.TimerSpec Verif.TimerProofs.
Import ListNotations.
Local Open Scope N_scope.

(** For any number of threads, every schedule, and whatever handlers do: every event is allowed by what went before ([allowed]). So a handler is
    called once for each timer, not if it was cancelled, not before its time, the first due first, and a pass leaves no timer that was due.
    Proved only for timers of less than 4294968 milliseconds, an hour and eleven minutes. *)
Theorem timers_go_off_partial : forall ls s h, Forall short ls -> run timers_new [] ls = Some (s, h) -> proper h.
Proof. intros ls s h Sh E. apply (run_ok ls timers_new [] s h inv_new I Sh E). Qed.
Print Assumptions timers_go_off_partial.

(** In particular: *)
Theorem timers_once_partial : forall ls s h id hd now h1 h2, Forall short ls -> run timers_new [] ls = Some (s, h) -> h = h2 ++ Called id hd now :: h1 ->
  ~ gone_in h1 id /\ exists msec now0, set_in h1 id msec now0 (Some hd) /\ now0 + msec * 1000 <= now.
Proof.
  intros ls s h id hd now h1 h2 Sh E ->. pose proof (timers_go_off_partial ls s _ Sh E) as P. clear E. induction h2 as [|e h2 IH]; [|apply IH; apply P].
  destruct P as [(m & n & A1 & A2 & A3 & _) _]. split; [exact A2|]. exists m, n. auto.
Qed.
Print Assumptions timers_once_partial.

(** A pass can always go on: there is a timer to take, or the pass ends. *)
Theorem timers_pass_goes_on : forall ls s h t now, run timers_new [] ls = Some (s, h) -> threads s t = Scan now ->
  step s (Nothing t) <> None \/ exists id, step s (Take t id) <> None.
Proof.
  intros ls s h t now E T. apply (scan_goes_on s t now); [|exact T]. apply (run_unique ls timers_new [] s h); [|exact E]. split; [intros x y []|intros x []].
Qed.
Print Assumptions timers_pass_goes_on.

(** Whatever handlers do meanwhile, the time of a pass is the one at which the thread began it: calls, and the end of the pass, are of that time. *)
Theorem timers_pass_time : forall l1 t now l2 s h l s' es, run timers_new [] (l1 ++ Enter t now :: l2) = Some (s, h) -> Forall (fun l => forall n, l <> Enter t n) l2 ->
  l = Nothing t \/ (exists id, l = Take t id) -> step s l = Some (s', es) -> Forall (fun e => match e with Called _ _ n | Passed n => n = now | _ => True end) es.
Proof.
  intros l1 t now l2 s h l s' es E F L E2. pose proof (run_entered _ _ _ _ _ _ _ _ E F) as A. unfold at_time in A. destruct L as [->|(id & ->)]; cbn [step] in E2; destruct (threads s t) as [|n|]; try discriminate; subst n.
  - destruct (forallb _ _); [|discriminate]. injection E2 as _ <-. repeat constructor.
  - destruct (find id (heap s)) as [x|]; [|discriminate]. destruct (_ && _); [|discriminate]. destruct (handler x); injection E2 as _ <-; repeat constructor.
Qed.
Print Assumptions timers_pass_time.

(** Two threads, three timers, one of them set by a handler, one cancelled. *)
Definition ex_schedule : list label :=
  [Set_ 10 1000 (Some 7%nat); Set_ 5 1000 (Some 8%nat); Enter 0 7000; Take 0 1; Set_ 1 7001 (Some 9%nat); Set_ 50 7001 None; Enter 1 12000; Return_ 0; Take 1 2; Nothing 0; Return_ 1; Take 1 0; Cancel 3; Return_ 1; Nothing 1].
Example ex_timers : Forall short ex_schedule /\
  match run timers_new [] ex_schedule with
  | Some (s, h) => h = [Passed 12000; Cancelled 3; Called 0 7 12000; Passed 7000; Called 2 9 12000; WasSet 3 50 7001 None; WasSet 2 1 7001 (Some 9%nat); Called 1 8 7000; WasSet 1 5 1000 (Some 8%nat); WasSet 0 10 1000 (Some 7%nat)]
  | None => False
  end.
Proof. split; [repeat constructor|]. vm_compute. reflexivity. Qed.
Example ex_scanning : match run timers_new [] (firstn 8 ex_schedule) with Some (s, h) => threads s 0%nat = Scan 7000 /\ threads s 1%nat = Scan 12000 /\ length (heap s) = 3%nat | None => False end.
Proof. vm_compute. auto. Qed.

(** The first thread goes on with its pass of 7000 when the handler has returned. *)
Example ex_pass_time : match run timers_new [] (firstn 9 ex_schedule) with Some (s, _) => option_map Datatypes.snd (step s (Nothing 0)) = Some [Passed 7000] | None => False end /\ firstn 9 ex_schedule = firstn 2 ex_schedule ++ Enter 0 7000 :: firstn 6 (skipn 3 ex_schedule).
Proof. vm_compute. auto. Qed.

(** The full statement is false: a timer of 4294968 milliseconds goes off after less than a millisecond. *)
Theorem timers_go_off_refuted : ~ (forall ls s h, Forall (fun l => match l with Set_ msec now _ => msec < 2 ^ 32 /\ now < 2 ^ 63 | _ => True end) ls -> run timers_new [] ls = Some (s, h) -> proper h).
Proof.
  intros H. pose (ls := [Set_ 4294968 0 (Some 7%nat); Enter 0 1000; Take 0 0]). specialize (H ls).
  assert (X : match run timers_new [] ls with Some (s, h) => h = [Called 0 7 1000; WasSet 0 4294968 0 (Some 7%nat)] | None => False end) by (vm_compute; reflexivity).
  destruct (run timers_new [] ls) as [[s h]|]; [|contradiction]. subst h. specialize (H s _ ltac:(repeat constructor) eq_refl).
  destruct H as [(m & n & [A|[]] & _ & A3 & _) _]. injection A as <- <-. vm_compute in A3. apply A3. reflexivity.
Qed.
Print Assumptions timers_go_off_refuted.

(** * Messages between threads: the properties *)

From Coq Require Import List Arith NArith Bool Lia.
From Coq Require Import ZifyBool ZifyNat ZifyN.
From Verif Require Import Base IothModel IothSpec IothProofs.
Import ListNotations.
Local Open Scope nat_scope.

(** A history used below.  Thread 0 is a user thread, 1 and 2 are I/O threads.  The user thread sends two messages without
    and one with feedback; thread 1 takes the first three and answers the second one from its handler; thread 2 tries to
    receive meanwhile; the third message is held and released later. *)
Definition talk : list event :=
  [ CallSend 0 7 70 Io 0 true; Lock 0 true; CallSend 0 8 80 Io 0 true; CallRecv 1 User; Lock 0 true; Lock 1 true;
    CallRecv 2 User; Next 1; Return 1; CallSend 0 9 90 Io 1 true; Next 1; CallSend 1 5 50 User 0 true; Lock 1 true;
    Return 1; Next 1; Lock 0 true; Lock 2 true; Next 2; Hold 2 2 ].
Definition answer : list event := [ Return 2; Next 2; Release 1 2; CallRecv 1 User; Wake 0; Lock 1 true; Next 1; CallRecv 0 Io; Lock 0 true; Next 0; Return 0; Next 0 ].

Definition state_after (n : nat) (es : list event) : option state :=
  match run (init n) es with Done st _ => Some st | _ => None end.
Definition out_after (n : nat) (es : list event) : option (list output) :=
  match run (init n) es with Done _ out => Some out | _ => None end.

Example talk_out : out_after 3 (talk ++ answer) =
  Some [Queued Io 0 7 70 false; Sent 0 0 false; Queued Io 1 8 80 false; Sent 0 1 false; Called 1 Io 0 7 70; Left 1 Io 0;
        Called 1 Io 1 8 80; Queued User 3 5 50 false; Sent 1 3 false; Left 1 Io 1; Received 1 Io 2;
        Queued Io 2 9 90 true; Called 2 Io 2 9 90; Held 2 2; Left 2 Io 2; Received 2 Io 1; Released 1 2; Sent 0 2 true;
        Received 1 Io 0; Called 0 User 3 5 50; Left 0 User 3; Received 0 User 1].
Proof. vm_compute. reflexivity. Qed.
Example talk_careful : careful [] (init 3) (talk ++ answer) = true.
Proof. vm_compute. reflexivity. Qed.

(** ** Each side's handler is given what was sent to that side, with its type and data, each message once and in the
    order of sending; the rest is waiting. *)
Lemma count_sent m : forall out, count_occ Nat.eq_dec (map name (sent_to Io out)) m + count_occ Nat.eq_dec (map name (sent_to User out)) m = tot (one (queued m)) out.
Proof.
  induction out as [|o out IH]; [reflexivity|]. change (o :: out) with ([o] ++ out). rewrite !sent_to_app, !map_app, !count_occ_app, tot_app.
  cut (count_occ Nat.eq_dec (map name (sent_to Io [o])) m + count_occ Nat.eq_dec (map name (sent_to User [o])) m = tot (one (queued m)) [o]); [lia|].
  destruct o; try reflexivity. cbn [sent_to flat_map tot]. unfold one. cbn [queued].
  destruct to; cbn [side_eqb app map name fst snd count_occ]; destruct (Nat.eqb_spec m m0) as [->|]; destruct (Nat.eq_dec _ _); cbn [Nat.b2n]; congruence || lia.
Qed.

Theorem iothread_order n es st out : run (init n) es = Done st out ->
  (forall q, sent_to q out = handled q out ++ waiting st q) /\ NoDup (map name (sent_to Io out ++ sent_to User out)).
Proof.
  intros H. apply (good_run _ _ [] _ _ (good_init n)) in H. cbn [app] in H. destruct H as [P O L C]. split; [apply O|].
  apply (NoDup_count_occ Nat.eq_dec). intros m. rewrite map_app, count_occ_app, count_sent. destruct P as [P _ _]. specialize (P m).
  destruct (m <? length (s_heap st)); cbn [Nat.b2n] in P; lia.
Qed.
Print Assumptions iothread_order.

Example talk_order :
  option_map (sent_to Io) (out_after 3 talk) = Some [(0, 7%N, 70%N); (1, 8%N, 80%N); (2, 9%N, 90%N)] /\
  option_map (handled Io) (out_after 3 talk) = Some [(0, 7%N, 70%N); (1, 8%N, 80%N); (2, 9%N, 90%N)] /\
  option_map (fun st => waiting st User) (state_after 3 talk) = Some [(3, 5%N, 50%N)].
Proof. vm_compute. repeat split. Qed.

(** ** A message is queued for the side, and with the type, the data and the feedback, that its call of [mln_iothread_send] said; the handler of a call of
    [mln_iothread_recv] is given messages that are for the other side than the one it receives from, and so are those it counts. *)
Theorem iothread_calls n es st out : run (init n) es = Done st out ->
  (forall to m ty d fb, In (Queued to m ty d fb) out -> nth_error (calls es) m = Some (ty, d, to, fb)) /\
  (forall t q m ty d, In (Called t q m ty d) out -> exists from, In (CallRecv t from) es /\ from <> q) /\
  (forall t q k, In (Received t q k) out -> exists from, In (CallRecv t from) es /\ from <> q).
Proof.
  intros H. destruct (called_run es [] (init n) st out (called_init n) H) as [_ F]. cbn [app] in F. rewrite Forall_forall in F.
  split; [|split]; intros *; intros I; apply F in I; exact I.
Qed.
Print Assumptions iothread_calls.
Example talk_calls : calls (talk ++ answer) = [(7%N, 70%N, Io, false); (8%N, 80%N, Io, false); (9%N, 90%N, Io, true); (5%N, 50%N, User, false)].
Proof. reflexivity. Qed.

(** ** A side's socket can be read exactly while a message waits for it and nobody is receiving; there is never more
    than one byte in it, so that it cannot be full. *)
Lemma waiting_nil st out q : places st out -> waiting st q = [] <-> c_queue (get st q) = [].
Proof.
  intros P. rewrite waiting_content. pose proof (queue_bound st out q) as B. destruct (c_queue (get st q)) as [|m l]; [tauto|].
  specialize (B m P (or_introl eq_refl)). cbn [flat_map]. unfold content at 1. destruct (nth_error (s_heap st) m) eqn:E; [split; discriminate|].
  apply nth_error_None in E. lia.
Qed.

Theorem iothread_notice n es st out q : run (init n) es = Done st out ->
  (c_bytes (get st q) <= 1)%N /\ (c_owner (get st q) = None -> (c_bytes (get st q) = 0%N <-> waiting st q = [])).
Proof.
  intros H. apply (good_run _ _ [] _ _ (good_init n)) in H. cbn [app] in H. destruct H as [P O L C]. split.
  - destruct (c_owner (get st q)) as [t|] eqn:W.
    + pose proof (l_real _ L _ _ W) as R. apply nth_error_Some in R. destruct (nth_error (s_threads st) t) as [fs|] eqn:T; [|congruence].
      pose proof (l_own _ L _ _ q T) as S. unfold holds in S. rewrite W, Nat.eqb_refl in S. cbn [Nat.b2n] in S.
      destruct (tot_pos (one (owns q)) fs) as [f [F1 F2]]; [lia|]. unfold one in F2. destruct (owns q f) eqn:F; [|cbn [Nat.b2n] in F2; lia].
      pose proof (l_flag _ L _ _ _ q T F1 F) as G. destruct f; cbn [owns] in F; try discriminate; cbn [flag] in G; destruct G as [-> _]; destruct first; lia.
    + rewrite (l_idle _ L _ W). unfold some_byte. destruct (c_queue (get st q)); lia.
  - intros W. rewrite (waiting_nil st out q P), (l_idle _ L _ W). unfold some_byte. destruct (c_queue (get st q)); split; try reflexivity; try discriminate.
Qed.
Print Assumptions iothread_notice.

Example talk_notice :
  option_map (fun st => (c_owner (s_user st), c_bytes (s_user st))) (state_after 3 talk) = Some (None, 1%N) /\
  option_map (fun st => (c_owner (s_io st), c_bytes (s_io st))) (state_after 3 (talk ++ answer)) = Some (None, 0%N).
Proof. vm_compute. repeat split. Qed.

(** ** When a call of receive returns nothing waits; and what the calls returned is the number of messages handled. *)
Lemma no_frames w ths : (forall t fs, nth_error ths t = Some fs -> tot w fs = 0) -> frames w ths = 0.
Proof.
  intros H. destruct (Nat.eq_dec (frames w ths) 0) as [E|E]; [exact E|]. destruct (tot_pos (tot w) ths) as [fs [I P]]; [unfold frames in E; lia|].
  apply In_nth_error in I. destruct I as [t I]. rewrite (H _ _ I) in P. lia.
Qed.

Lemma tot_le {A} (v w : A -> nat) l : (forall x, w x = 0 -> v x = 0) -> tot w l = 0 -> tot v l = 0.
Proof. intros H. induction l as [|x l IH]; cbn [tot]; [auto|]. intros E. rewrite H by lia. rewrite IH by lia. reflexivity. Qed.

Theorem iothread_receive n es st out : run (init n) es = Done st out ->
  (forall e st' t q k, step st e = Done st' [Received t q k] -> waiting st' q = []) /\
  (forall q, c_owner (get st q) = None -> received q out = N.of_nat (length (handled q out))).
Proof.
  intros H. apply (good_run _ _ [] _ _ (good_init n)) in H. cbn [app] in H. destruct H as [P O L [C1 C2]]. split.
  - intros e st' t q k S. apply step_trans in S. remember [Received t q k] as o eqn:E. destruct S; try discriminate.
    injection E as -> -> ->. subst c. rewrite waiting_content. parts. rewrite side_eqb_refl. reflexivity.
  - intros q W. rewrite received_tot. specialize (C1 q). specialize (C2 q).
    assert (Z : forall t fs, nth_error (s_threads st) t = Some fs -> tot (one (owns q)) fs = 0).
    { intros t fs T. rewrite (l_own _ L _ _ q T). unfold holds. now rewrite W. }
    rewrite (no_frames (so_far q)) in C1; [rewrite (no_frames (one (busy q))) in C2; [lia|]|];
      intros t fs T; specialize (Z _ _ T); eapply tot_le; [|exact Z| |exact Z];
      intros f; unfold one; destruct f; cbn [owns busy so_far]; try reflexivity; destruct (side_eqb _ q); try reflexivity; discriminate.
Qed.
Print Assumptions iothread_receive.

Example talk_receive :
  option_map (received Io) (out_after 3 (talk ++ answer)) = Some 3%N /\
  option_map (fun o => length (handled Io o)) (out_after 3 (talk ++ answer)) = Some 3.
Proof. vm_compute. repeat split. Qed.

(** ** Used with care, no freed message is touched and no mutex is misused, whatever the schedule. *)
Theorem iothread_safe_partial n es : careful [] (init n) es = true -> run (init n) es <> Fault.
Proof. apply safe_run; [apply good_init|apply care_init]. Qed.
Print Assumptions iothread_safe_partial.

(** ** A send with feedback comes back only after the handler has returned, and, if the message was held, after it was
    released. *)
Theorem iothread_feedback_partial n es st out t m o1 o2 : careful [] (init n) es = true -> run (init n) es = Done st out ->
  out = o1 ++ Sent t m true :: o2 ->
  existsb (left_ m) o1 = true /\ (existsb (held m) o1 = true -> existsb (released m) o1 = true).
Proof.
  intros C H E. pose proof (sent_run _ _ [] _ _ _ _ _ _ (good_init n) (care_init n) C H E) as [A B]. cbn [app] in A, B.
  rewrite !existsb_tot. split; [lia|]. intros X. apply Nat.ltb_lt in X. apply Nat.ltb_lt. auto.
Qed.
Print Assumptions iothread_feedback_partial.

Example talk_feedback : existsb (fun o => match o with Sent 0 2 true => true | _ => false end)
    (match out_after 3 (talk ++ answer) with Some o => o | None => [] end) = true /\
  option_map (existsb (left_ 2)) (out_after 3 talk) = Some false.
Proof. vm_compute. repeat split. Qed.

(** ** When all calls have returned and nothing waits every message has been freed. *)
Theorem iothread_freed_partial n es st out : careful [] (init n) es = true -> run (init n) es = Done st out ->
  Forall (fun fs => fs = []) (s_threads st) -> waiting st Io = [] -> waiting st User = [] -> Forall (fun x => m_live x = false) (s_heap st).
Proof.
  intros C H F W1 W2. pose proof (care_run _ _ [] _ _ (good_init n) (care_init n) C H) as K. apply (good_run _ _ [] _ _ (good_init n)) in H.
  cbn [app] in *. pose proof (g_places _ _ H) as P. apply (waiting_nil st out _ P) in W1. apply (waiting_nil st out _ P) in W2.
  apply Forall_forall. intros x I. apply In_nth_error in I. destruct I as [m E]. pose proof (k_msg _ _ K m x E) as [_ [_ [A B]]].
  assert (Z : forall w, frames w (s_threads st) = 0).
  { intros w. apply no_frames. intros t fs T. rewrite Forall_forall in F. rewrite (F fs) by (eapply nth_error_In; exact T). reflexivity. }
  rewrite !Z in A, B. unfold occ in A, B. rewrite W1, W2 in A, B. cbn [tot] in A, B.
  destruct (m_live x); [|reflexivity]. destruct (m_feedback x); [specialize (B eq_refl eq_refl)|specialize (A eq_refl eq_refl)]; lia.
Qed.
Print Assumptions iothread_freed_partial.

Example talk_freed : option_map (fun st => (s_threads st, waiting st Io, waiting st User, map m_live (s_heap st))) (state_after 3 (talk ++ answer)) =
  Some ([[]; []; []], [], [], [false; false; false; false]).
Proof. vm_compute. reflexivity. Qed.

(** ** Calls go on.  A thread in a call can go on, or another one can, or it waits for feedback on a message that waits
    or that was held and is not yet released - if no handler makes a call.  The full property, without that condition,
    is refuted below. *)
Theorem iothread_progress_partial n es st out t : careful [] (init n) es = true -> run (init n) es = Done st out ->
  flat st -> in_call st t ->
  can_go_on st t \/ (exists u, u <> t /\ can_go_on st u) \/
  exists m, nth_error (s_threads st) t = Some [SendWait m] /\
    (In m (map name (waiting st Io ++ waiting st User)) \/ existsb (held m) out && negb (existsb (released m) out) = true).
Proof.
  intros C H FL [f [fs T]]. pose proof (care_run _ _ [] _ _ (good_init n) (care_init n) C H) as K. apply (good_run _ _ [] _ _ (good_init n)) in H.
  cbn [app] in *. pose proof (g_places _ _ H) as P. pose proof (g_locks _ _ H) as L.
  assert (TOP : forall u g gs, nth_error (s_threads st) u = Some (g :: gs) -> gs = []).
  { intros u g gs U. unfold flat in FL. rewrite Forall_forall in FL. specialize (FL _ (nth_error_In _ _ U)). cbn [length] in FL. destruct gs; [reflexivity|cbn [length] in FL; lia]. }
  assert (OWN : forall u gs q, nth_error (s_threads st) u = Some gs -> tot (one (owns q)) gs = 1 -> can_go_on st u).
  { intros u gs q U O. destruct (tot_pos (one (owns q)) gs) as [g [G1 G2]]; [lia|]. unfold one in G2. destruct (owns q g) eqn:G; [|cbn [Nat.b2n] in G2; lia].
    destruct gs as [|g' gs]; [destruct G1|]. pose proof (TOP _ _ _ U) as ->. destruct G1 as [->|[]]. destruct g; cbn [owns] in G; try discriminate.
    - pose proof (care_safe st out (Next u) P K eq_refl) as S. unfold can_go_on. exists (Next u).
      unfold step in *. cbn [who] in *. rewrite U in *. unfold next in *. destruct (c_queue (get st q0)) as [|m rest]; [eexists; eexists; repeat split|].
      destruct (msg_at st m) as [x|]; [eexists; eexists; repeat split|congruence].
    - pose proof (care_safe st out (Return u) P K eq_refl) as S. unfold can_go_on. exists (Return u).
      unfold step in *. cbn [who] in *. rewrite U in *. unfold handler_return in *. destruct (msg_at st m) as [x|]; [|congruence].
      destruct (if m_feedback x then if m_hold x then Some x else unlock x else Some (msg_free x)); [eexists; eexists; repeat split|congruence]. }
  assert (HOLDER : forall q u, c_owner (get st q) = Some u -> tot (one (owns q)) (f :: fs) = 0 -> exists v, v <> t /\ can_go_on st v).
  { intros q u O Z. exists u. pose proof (l_real _ L _ _ O) as R. apply nth_error_Some in R. destruct (nth_error (s_threads st) u) as [gs|] eqn:U; [|congruence].
    pose proof (l_own _ L _ _ q U) as W. unfold holds in W. rewrite O, Nat.eqb_refl in W. cbn [Nat.b2n] in W. split; [|eapply OWN; eauto].
    intros ->. rewrite T in U. injection U as <-. lia. }
  pose proof (TOP _ _ _ T) as ->. destruct f as [to m ty d fb|m|q|q first k|q first k m].
  - destruct (c_owner (get st to)) as [u|] eqn:O; [right; left; eapply HOLDER; [exact O|reflexivity]|]. left. exists (Lock t true).
    unfold step. cbn [who]. rewrite T, O. unfold lock_send. rewrite andb_false_r. destruct fb; eexists; eexists; repeat split.
  - pose proof (care_safe st out (Wake t) P K eq_refl) as S. unfold step in S. cbn [who] in S. rewrite T in S. unfold wake in S.
    destruct (msg_at st m) as [x|] eqn:M; [|congruence]. pose proof M as M'. apply msg_at_some in M'. destruct M' as [E LV]. destruct (m_mutex x) as [[|]|] eqn:U; [|left|congruence].
    + pose proof (k_msg _ _ K m x E) as [A [_ [_ D]]]. rewrite U in A. destruct (D LV A) as [D1 [D2 [D3 D4]]].
      assert (W : 0 < frames (one (waits m)) (s_threads st)) by (eapply in_frames; [exact T|now left|apply Nat.eqb_refl]).
      pose proof (p_born _ _ P m) as P1. pose proof (p_queue _ _ P m) as P2. pose proof (p_call _ _ P m) as P3. pose proof (k_wait _ _ K m) as K4.
      destruct (Nat.eq_dec (frames (one (handles m)) (s_threads st)) 0) as [HZ|HZ].
      * right. right. exists m. split; [exact T|]. destruct (Nat.eq_dec (occ m st) 0) as [OZ|OZ].
        -- right. assert (0 < tot (one (left_ m)) out) as LL by lia. specialize (D4 LL). rewrite D2 in D4. rewrite U in D4. injection D4 as D4.
           symmetry in D4. apply andb_prop in D4. destruct D4 as [D4 D5]. rewrite !existsb_tot. rewrite D4. apply Nat.eqb_eq in D5. rewrite D5. reflexivity.
        -- left. rewrite map_app. apply in_or_app.
           assert (IN : forall q, 0 < tot (one (Nat.eqb m)) (c_queue (get st q)) -> In m (map name (waiting st q))).
           { intros q Q. destruct (tot_pos _ _ Q) as [y [Y1 Y2]]. unfold one in Y2. destruct (Nat.eqb_spec m y) as [<-|]; [|cbn [Nat.b2n] in Y2; lia].
             rewrite waiting_content. apply in_map_iff. exists (m, m_type x, m_data x). split; [reflexivity|]. apply in_flat_map. exists m. split; [exact Y1|].
             unfold content. rewrite E. now left. }
           unfold occ in OZ. destruct (Nat.eq_dec (tot (one (Nat.eqb m)) (c_queue (get st Io))) 0); [right|left]; apply IN; lia.
      * right. left. destruct (tot_pos (tot (one (handles m))) (s_threads st)) as [gs [G1 G2]]; [unfold frames in HZ; lia|].
        apply In_nth_error in G1. destruct G1 as [u G1]. exists u. destruct gs as [|g gs]; [cbn [tot] in G2; lia|]. pose proof (TOP _ _ _ G1) as ->.
        destruct g; cbn [tot] in G2; unfold one in G2; cbn [handles Nat.b2n] in G2; try lia. split.
        -- intros ->. rewrite T in G1. discriminate.
        -- apply (OWN u _ q G1). cbn [tot]. unfold one. cbn [owns]. rewrite side_eqb_refl. reflexivity.
    + exists (Wake t). unfold step. cbn [who]. rewrite T. unfold wake. rewrite M, U. eexists; eexists; repeat split.
  - destruct (c_owner (get st q)) as [u|] eqn:O; [right; left; eapply HOLDER; [exact O|reflexivity]|]. left. exists (Lock t true).
    unfold step. cbn [who]. rewrite T, O. unfold lock_recv. eexists; eexists; repeat split.
  - left. apply (OWN t _ q T). cbn [tot]. unfold one. cbn [owns]. rewrite side_eqb_refl. reflexivity.
  - left. apply (OWN t _ q T). cbn [tot]. unfold one. cbn [owns]. rewrite side_eqb_refl. reflexivity.
Qed.
Print Assumptions iothread_progress_partial.

Example talk_progress : exists st out, run (init 3) talk = Done st out /\ flat st /\ in_call st 0 /\ nth_error (s_threads st) 0 = Some [SendWait 2].
Proof.
  eexists. eexists. split; [vm_compute; reflexivity|]. split; [|split]; [|eexists; eexists; reflexivity|reflexivity].
  unfold flat. cbn [s_threads]. repeat constructor.
Qed.

(** ** Where it goes wrong *)

(** A handler that asks the thread it is answering for feedback: both wait for ever. *)
Definition embrace : list event :=
  [ CallSend 0 1 1 Io 1 true; Lock 0 true; CallRecv 1 User; Lock 1 true; Next 1; CallSend 1 2 2 User 1 true; Lock 1 true ].
Theorem iothread_progress_refuted : exists st out, careful [] (init 2) embrace = true /\ run (init 2) embrace = Done st out /\
  (forall t, t < 2 -> in_call st t) /\ forall e, step st e = Disabled.
Proof.
  eexists. eexists. split; [vm_compute; reflexivity|]. split; [vm_compute; reflexivity|]. split.
  - intros [|[|t]] H; [eexists; eexists; reflexivity|eexists; eexists; reflexivity|lia].
  - intros e. unfold step. destruct (who e) as [|[|k]] eqn:W; cbn [s_threads nth_error].
    + destruct e; reflexivity.
    + destruct e; reflexivity.
    + destruct k; reflexivity.
Qed.
Print Assumptions iothread_progress_refuted.

(** A handler that sends to its own side, with or without feedback: the lock it needs is its own. *)
Definition echo : list event := [ CallSend 0 1 1 Io 0 true; Lock 0 true; CallRecv 0 User; Lock 0 true; Next 0; CallSend 0 2 2 Io 0 true ].
Theorem iothread_own_side_refuted : exists st out, careful [] (init 1) echo = true /\ run (init 1) echo = Done st out /\
  in_call st 0 /\ forall e, step st e = Disabled.
Proof.
  eexists. eexists. split; [vm_compute; reflexivity|]. split; [vm_compute; reflexivity|]. split; [eexists; eexists; reflexivity|].
  intros e. unfold step. destruct (who e) as [|k] eqn:W; cbn [s_threads nth_error].
  - destruct e; reflexivity.
  - destruct k; reflexivity.
Qed.
Print Assumptions iothread_own_side_refuted.

(** A message held in its handler and released - by any thread - before the handler has returned: the sender frees it,
    and the receiver looks at it. *)
Theorem iothread_hold_refuted :
  run (init 3) [ CallSend 0 1 1 Io 1 true; Lock 0 true; CallRecv 1 User; Lock 1 true; Next 1; Hold 1 0; Release 2 0; Wake 0; Return 1 ] = Fault.
Proof. vm_compute. reflexivity. Qed.
Print Assumptions iothread_hold_refuted.

(** An even number, not 0, for feedback: the sender waits, the receiver takes it for a message without feedback and frees it. *)
Theorem iothread_flag_refuted :
  run (init 2) [ CallSend 0 1 1 Io 2 true; Lock 0 true; CallRecv 1 User; Lock 1 true; Next 1; Return 1; Wake 0 ] = Fault.
Proof. vm_compute. reflexivity. Qed.
Print Assumptions iothread_flag_refuted.

(** * Messages between threads: invariants *)

From Coq Require Import List Arith NArith Bool Lia.
From Coq Require Import ZifyBool ZifyNat ZifyN.
From Verif Require Import Base IothModel IothSpec.
Import ListNotations.
Local Open Scope nat_scope.

(** ** Sums over frames and outputs *)

Fixpoint tot {A} (w : A -> nat) (l : list A) : nat := match l with [] => 0 | x :: l' => w x + tot w l' end.
Definition one {A} (f : A -> bool) (x : A) : nat := Nat.b2n (f x).

Lemma tot_app {A} (w : A -> nat) l l' : tot w (l ++ l') = tot w l + tot w l'.
Proof. induction l as [|x l IH]; cbn [app tot]; lia. Qed.
Lemma existsb_tot {A} (f : A -> bool) l : existsb f l = (0 <? tot (one f) l).
Proof. induction l as [|x l IH]; [reflexivity|]. cbn [existsb tot]. rewrite IH. unfold one at 2. destruct (f x); cbn [Nat.b2n orb]; lia. Qed.
Lemma tot_in {A} (w : A -> nat) l x : In x l -> w x <= tot w l.
Proof. induction l as [|y l IH]; [intros []|]. cbn [In tot]. intros [->|H]; [lia|specialize (IH H); lia]. Qed.
Lemma tot_pos {A} (w : A -> nat) l : 0 < tot w l -> exists x, In x l /\ 0 < w x.
Proof.
  induction l as [|y l IH]; cbn [tot]; [lia|]. intros H. destruct (Nat.eq_dec (w y) 0) as [E|E].
  - destruct IH as [x [Hx Hw]]; [lia|]. exists x. split; [now right|exact Hw].
  - exists y. split; [now left|lia].
Qed.

Definition frames (w : frame -> nat) (ths : list (list frame)) : nat := tot (tot w) ths.

Lemma frames_upd w : forall ths t fs fs', nth_error ths t = Some fs ->
  frames w (upd ths t fs') + tot w fs = frames w ths + tot w fs'.
Proof.
  unfold frames. induction ths as [|x ths IH]; intros t fs fs' H; [destruct t; discriminate|].
  destruct t as [|t]; cbn [nth_error] in H.
  - injection H as ->. cbn [upd tot]. lia.
  - cbn [upd tot]. specialize (IH _ _ fs' H). lia.
Qed.

Lemma frames_at w ths t fs : nth_error ths t = Some fs -> tot w fs <= frames w ths.
Proof. intros H. apply (tot_in (tot w)). eapply nth_error_In, H. Qed.

Definition wants (m : nat) (f : frame) : bool := match f with SendLock _ m' _ _ _ => Nat.eqb m m' | _ => false end.
Definition waits (m : nat) (f : frame) : bool := match f with SendWait m' => Nat.eqb m m' | _ => false end.
Definition handles (m : nat) (f : frame) : bool := match f with Handle _ _ _ m' => Nat.eqb m m' | _ => false end.
Definition owns (q : side) (f : frame) : bool := match f with Recv p _ _ | Handle p _ _ _ => side_eqb p q | _ => false end.
Definition busy (q : side) (f : frame) : bool := match f with Handle p _ _ _ => side_eqb p q | _ => false end.
Definition so_far (q : side) (f : frame) : nat :=
  match f with Recv p _ n | Handle p _ n _ => if side_eqb p q then N.to_nat n else 0 | _ => 0 end.

Definition queued (m : nat) (o : output) : bool := match o with Queued _ m' _ _ _ => Nat.eqb m m' | _ => false end.
Definition left_of (q : side) (o : output) : bool := match o with Left _ p _ => side_eqb p q | _ => false end.
Definition got (q : side) (o : output) : nat := match o with Received _ p n => if side_eqb p q then N.to_nat n else 0 | _ => 0 end.

Lemma received_tot q out : received q out = N.of_nat (tot (got q) out).
Proof.
  induction out as [|o out IH]; [reflexivity|]. unfold received in *. cbn [fold_right tot]. rewrite IH.
  destruct o; cbn [got]; try lia. destruct (side_eqb q0 q); lia.
Qed.

Lemma side_eqb_refl q : side_eqb q q = true.
Proof. destruct q; reflexivity. Qed.
Lemma side_eqb_eq p q : side_eqb p q = true <-> p = q.
Proof. destruct p, q; cbn [side_eqb]; split; congruence. Qed.
Lemma side_eqb_sym p q : side_eqb p q = side_eqb q p.
Proof. destruct p, q; reflexivity. Qed.

(** ** What a step does *)

Inductive trans (st : state) : event -> state -> list output -> Prop :=
| T_refused t fs ty d to fb : nth_error (s_threads st) t = Some fs ->
    trans st (CallSend t ty d to fb false) st [Refused t]
| T_send t fs ty d to fb : nth_error (s_threads st) t = Some fs ->
    trans st (CallSend t ty d to fb true)
      (mkS (s_heap st ++ [msg_new ty d fb]) (s_io st) (s_user st)
           (upd (s_threads st) t (SendLock to (length (s_heap st)) ty d (negb (fb =? 0)%N) :: fs))) []
| T_recv t fs from : nth_error (s_threads st) t = Some fs ->
    trans st (CallRecv t from) (set_thread st t (RecvLock (recv_side from) :: fs)) []
| T_hold t fs m x : nth_error (s_threads st) t = Some fs -> nth_error (s_heap st) m = Some x -> m_live x = true ->
    trans st (Hold t m) (set_msg st m (mkM (m_feedback x) true (m_type x) (m_data x) (m_mutex x) (m_live x))) [Held t m]
| T_release t fs m x : nth_error (s_threads st) t = Some fs -> nth_error (s_heap st) m = Some x -> m_live x = true -> m_mutex x = Some true ->
    trans st (Release t m) (set_msg st m (mkM (m_feedback x) (m_hold x) (m_type x) (m_data x) (Some false) (m_live x))) [Released t m]
| T_full t fs to m ty d fb x x' : nth_error (s_threads st) t = Some (SendLock to m ty d fb :: fs) -> c_owner (get st to) = None ->
    nth_error (s_heap st) m = Some x -> m_live x = true -> (if fb then unlock x else Some x) = Some x' ->
    trans st (Lock t false) (set_thread (set_msg st m (msg_free x')) t fs) [Full t m]
| T_queued t fs to m ty d fb sent c : nth_error (s_threads st) t = Some (SendLock to m ty d fb :: fs) -> c_owner (get st to) = None ->
    c = mkC (c_queue (get st to) ++ [m]) None
            (match c_queue (get st to) with [] => c_bytes (get st to) + 1 | _ => c_bytes (get st to) end)%N ->
    trans st (Lock t sent) (set_thread (put st to c) t (if fb then SendWait m :: fs else fs))
      (Queued to m ty d fb :: if fb then [] else [Sent t m false])
| T_woken t fs m x : nth_error (s_threads st) t = Some (SendWait m :: fs) -> nth_error (s_heap st) m = Some x -> m_live x = true ->
    m_mutex x = Some false ->
    trans st (Wake t) (set_thread (set_msg st m (msg_free x)) t fs) [Sent t m true]
| T_locked t fs q sent c : nth_error (s_threads st) t = Some (RecvLock q :: fs) -> c_owner (get st q) = None ->
    c = mkC (c_queue (get st q)) (Some t) (c_bytes (get st q)) ->
    trans st (Lock t sent)
      (set_thread (put st q c) t (Recv q (match c_queue (get st q) with [] => false | _ => true end) 0 :: fs)) []
| T_called t fs q first n m rest x c : nth_error (s_threads st) t = Some (Recv q first n :: fs) -> c_queue (get st q) = m :: rest ->
    nth_error (s_heap st) m = Some x -> m_live x = true -> c = mkC rest (c_owner (get st q)) (c_bytes (get st q)) ->
    trans st (Next t) (set_thread (put st q c) t (Handle q first n m :: fs)) [Called t q m (m_type x) (m_data x)]
| T_received t fs q first n c : nth_error (s_threads st) t = Some (Recv q first n :: fs) -> c_queue (get st q) = [] ->
    c = mkC [] None (if first then c_bytes (get st q) - 1 else c_bytes (get st q))%N ->
    trans st (Next t) (set_thread (put st q c) t fs) [Received t q n]
| T_left t fs q first n m x x' : nth_error (s_threads st) t = Some (Handle q first n m :: fs) ->
    nth_error (s_heap st) m = Some x -> m_live x = true ->
    (if m_feedback x then if m_hold x then Some x else unlock x else Some (msg_free x)) = Some x' ->
    trans st (Return t) (set_thread (set_msg st m x') t (Recv q first (n + 1) :: fs)) [Left t q m].

Lemma msg_at_some st m x : msg_at st m = Some x -> nth_error (s_heap st) m = Some x /\ m_live x = true.
Proof.
  unfold msg_at. destruct (nth_error (s_heap st) m) as [y|]; [|discriminate]. destruct (m_live y) eqn:L; [|discriminate].
  intros H. injection H as <-. auto.
Qed.

Lemma step_trans st e st' out : step st e = Done st' out -> trans st e st' out.
Proof.
  unfold step. destruct (nth_error (s_threads st) (who e)) as [fs|] eqn:T; [|discriminate].
  destruct e as [t ty d to fb mem|t from|t m|t m|t sent|t|t|t]; cbn [who] in T |- *.
  - destruct (own_code fs); [|discriminate]. unfold call_send. destruct mem; intros H; injection H as <- <-;
      [exact (T_send st t fs ty d to fb T)|exact (T_refused st t fs ty d to fb T)].
  - destruct (own_code fs); [|discriminate]. intros H; injection H as <- <-. econstructor; eauto.
  - destruct (own_code fs); [|discriminate]. unfold hold. destruct (msg_at st m) as [x|] eqn:M; [|discriminate].
    apply msg_at_some in M. intros H; injection H as <- <-. econstructor; eauto; apply M.
  - destruct (own_code fs); [|discriminate]. unfold release. destruct (msg_at st m) as [x|] eqn:M; [|discriminate].
    apply msg_at_some in M. unfold unlock. destruct (m_mutex x) as [[|]|] eqn:U; try discriminate.
    intros H; injection H as <- <-. econstructor; eauto; apply M.
  - destruct fs as [|[to m ty d fb|m|q|q first n|q first n m] fs]; try discriminate.
    + destruct (c_owner (get st to)) eqn:O; [discriminate|]. unfold lock_send.
      destruct (c_queue (get st to)) as [|y ys] eqn:Q; [destruct sent|]; cbn [andb negb].
      * intros H. assert (E : trans st (Lock t true) (set_thread (put st to (mkC (c_queue (get st to) ++ [m]) None (c_bytes (get st to) + 1))) t (if fb then SendWait m :: fs else fs))
                        (Queued to m ty d fb :: if fb then [] else [Sent t m false])).
        { econstructor; eauto. rewrite Q. reflexivity. }
        rewrite Q in E. destruct fb; injection H as <- <-; exact E.
      * destruct (msg_at st m) as [x|] eqn:M; [|discriminate]. apply msg_at_some in M.
        destruct (if fb then unlock x else Some x) as [x'|] eqn:U; [|discriminate].
        intros H. injection H as <- <-. eapply T_full; eauto; apply M.
      * intros H. assert (E : trans st (Lock t sent) (set_thread (put st to (mkC (c_queue (get st to) ++ [m]) None (c_bytes (get st to)))) t (if fb then SendWait m :: fs else fs))
                        (Queued to m ty d fb :: if fb then [] else [Sent t m false])).
        { econstructor; eauto. rewrite Q. reflexivity. }
        rewrite Q in E. destruct fb; injection H as <- <-; exact E.
    + destruct (c_owner (get st q)) eqn:O; [discriminate|]. unfold lock_recv. intros H. injection H as <- <-.
      econstructor; eauto.
  - destruct fs as [|[to m ty d fb|m|q|q first n|q first n m] fs]; try discriminate. unfold wake.
    destruct (msg_at st m) as [x|] eqn:M; [|discriminate]. apply msg_at_some in M.
    destruct (m_mutex x) as [[|]|] eqn:U; try discriminate. intros H. injection H as <- <-. econstructor; eauto; apply M.
  - destruct fs as [|[to m ty d fb|m|q|q first n|q first n m] fs]; try discriminate. unfold next.
    destruct (c_queue (get st q)) as [|m rest] eqn:Q.
    + intros H. injection H as <- <-. econstructor; eauto.
    + destruct (msg_at st m) as [x|] eqn:M; [|discriminate]. apply msg_at_some in M.
      intros H. injection H as <- <-. econstructor; eauto; apply M.
  - destruct fs as [|[to m ty d fb|m|q|q first n|q first n m] fs]; try discriminate. unfold handler_return.
    destruct (msg_at st m) as [x|] eqn:M; [|discriminate]. apply msg_at_some in M.
    destruct (if m_feedback x then if m_hold x then Some x else unlock x else Some (msg_free x)) as [x'|] eqn:U; [|discriminate].
    intros H. injection H as <- <-. econstructor; eauto; apply M.
Qed.

(** ** The parts of a state after an update *)

Lemma get_put st q c p : get (put st q c) p = if side_eqb q p then c else get st p.
Proof. destruct q, p; reflexivity. Qed.
Lemma get_set_thread st t fs p : get (set_thread st t fs) p = get st p.
Proof. destruct p; reflexivity. Qed.
Lemma get_set_msg st m x p : get (set_msg st m x) p = get st p.
Proof. destruct p; reflexivity. Qed.
Lemma heap_put st q c : s_heap (put st q c) = s_heap st.
Proof. destruct q; reflexivity. Qed.
Lemma heap_set_thread st t fs : s_heap (set_thread st t fs) = s_heap st.
Proof. reflexivity. Qed.
Lemma heap_set_msg st m x : s_heap (set_msg st m x) = upd (s_heap st) m x.
Proof. reflexivity. Qed.
Lemma threads_put st q c : s_threads (put st q c) = s_threads st.
Proof. destruct q; reflexivity. Qed.
Lemma threads_set_thread st t fs : s_threads (set_thread st t fs) = upd (s_threads st) t fs.
Proof. reflexivity. Qed.
Lemma threads_set_msg st m x : s_threads (set_msg st m x) = s_threads st.
Proof. reflexivity. Qed.

Ltac parts := rewrite ?get_set_thread, ?get_set_msg, ?get_put, ?heap_set_thread, ?heap_set_msg, ?heap_put,
  ?threads_set_thread, ?threads_set_msg, ?threads_put.
Ltac parts_in H := rewrite ?get_set_thread, ?get_set_msg, ?get_put, ?heap_set_thread, ?heap_set_msg, ?heap_put,
  ?threads_set_thread, ?threads_set_msg, ?threads_put in H.

(** ** Every message is in one place *)

Definition occ (m : nat) (st : state) : nat :=
  tot (one (Nat.eqb m)) (c_queue (get st Io)) + tot (one (Nat.eqb m)) (c_queue (get st User)).

Lemma occ_put m st q c : occ m (put st q c) + tot (one (Nat.eqb m)) (c_queue (get st q)) = occ m st + tot (one (Nat.eqb m)) (c_queue c).
Proof. unfold occ. destruct q; cbn [get put s_io s_user]; lia. Qed.
Lemma occ_set_thread m st t fs : occ m (set_thread st t fs) = occ m st.
Proof. reflexivity. Qed.
Lemma occ_set_msg m st k x : occ m (set_msg st k x) = occ m st.
Proof. reflexivity. Qed.

Record places (st : state) (out : list output) : Prop := mkPl {
  p_born : forall m, frames (one (wants m)) (s_threads st) + tot (one (queued m)) out <= Nat.b2n (m <? length (s_heap st));
  p_queue : forall m, tot (one (called m)) out + occ m st = tot (one (queued m)) out;
  p_call : forall m, tot (one (called m)) out = tot (one (left_ m)) out + frames (one (handles m)) (s_threads st)
}.

Ltac tots := cbn [tot one wants waits handles owns busy so_far queued called left_ held released asked left_of got Nat.b2n app] in *.
Ltac thread w H := let E := fresh "F" in match type of H with nth_error ?ths ?t = Some ?fs =>
  match goal with |- context [upd ths t ?fs'] => pose proof (frames_upd w ths t fs fs' H) as E end end.

Lemma places_init n : places (init n) [].
Proof.
  assert (Z : forall w : frame -> nat, frames w (repeat [] n) = 0).
  { intros w. unfold frames. induction n as [|n IH]; [reflexivity|]. cbn [repeat tot]. exact IH. }
  constructor; intros m; cbn [init s_threads s_heap length]; rewrite ?Z; reflexivity || (cbn [tot]; lia).
Qed.

Lemma places_step st e st' o out : places st out -> trans st e st' o -> places st' (out ++ o).
Proof.
  intros [P1 P2 P3] T. destruct T; try subst c;
    try match goal with H : nth_error _ _ = Some (SendLock _ _ _ _ ?fb :: _) |- _ => destruct fb end;
    (constructor; intros k; specialize (P1 k); specialize (P2 k); specialize (P3 k));
    rewrite ?tot_app; rewrite ?occ_set_thread, ?occ_set_msg; parts; rewrite ?upd_length, ?app_length;
    try match goal with H : nth_error (s_threads _) _ = _ |- context [wants] => thread (one (wants k)) H end;
    try match goal with H : nth_error (s_threads _) _ = _ |- context [handles] => thread (one (handles k)) H end;
    try match goal with |- context [occ k (put ?s ?q ?c)] => pose proof (occ_put k s q c) end;
    try match goal with |- context [occ k (mkS ?h (s_io ?s) (s_user ?s) ?ths)] => change (occ k (mkS h (s_io s) (s_user s) ths)) with (occ k s) end;
    try match goal with H : c_queue _ = _ |- _ => rewrite H in * end;
    cbn [c_queue s_heap s_threads s_io s_user] in *; rewrite ?app_length in *; cbn [length] in *;
    unfold one in *; tots; rewrite ?tot_app in *; tots; try lia.
Qed.

(** ** Messages come in the order in which they were sent *)

Definition content (h : list msg) (m : nat) : list (nat * N * N) :=
  match nth_error h m with Some x => [(m, m_type x, m_data x)] | None => [] end.

Lemma waiting_content st q : waiting st q = flat_map (content (s_heap st)) (c_queue (get st q)).
Proof. reflexivity. Qed.

Lemma content_upd h m x x' k : nth_error h m = Some x -> m_type x' = m_type x -> m_data x' = m_data x ->
  content (upd h m x') k = content h k.
Proof.
  intros H T D. unfold content. rewrite nth_error_upd. destruct (Nat.eqb_spec m k) as [->|]; [|reflexivity].
  assert (L : k < length h) by (apply nth_error_Some; congruence). rewrite H.
  destruct (Nat.ltb_spec k (length h)); [|lia]. now rewrite T, D.
Qed.

Lemma flat_map_same {A B} (f g : A -> list B) l : (forall x, In x l -> f x = g x) -> flat_map f l = flat_map g l.
Proof. induction l as [|x l IH]; intros H; [reflexivity|]. cbn [flat_map]. rewrite H by now left. rewrite IH; [reflexivity|]. intros y Hy. apply H. now right. Qed.

Lemma unlock_same x x' : unlock x = Some x' -> m_type x' = m_type x /\ m_data x' = m_data x /\ m_feedback x' = m_feedback x /\ m_hold x' = m_hold x /\
  m_live x' = m_live x /\ m_mutex x = Some true /\ m_mutex x' = Some false.
Proof. unfold unlock. destruct (m_mutex x) as [[|]|] eqn:U; try discriminate. intros H. injection H as <-. repeat split. Qed.

Record order (st : state) (out : list output) : Prop := mkOr {
  o_arg : forall t fs to m ty d fb, nth_error (s_threads st) t = Some fs -> In (SendLock to m ty d fb) fs -> content (s_heap st) m = [(m, ty, d)];
  o_fifo : forall q, sent_to q out = handled q out ++ waiting st q
}.

Lemma sent_to_app q a b : sent_to q (a ++ b) = sent_to q a ++ sent_to q b.
Proof. apply flat_map_app. Qed.
Lemma handled_app q a b : handled q (a ++ b) = handled q a ++ handled q b.
Proof. apply flat_map_app. Qed.

Lemma order_init n : order (init n) [].
Proof.
  constructor.
  - intros t fs to m ty d fb H. apply nth_error_In, repeat_spec in H. subst fs. intros [].
  - intros [|]; reflexivity.
Qed.

Lemma queue_bound st out q m : places st out -> In m (c_queue (get st q)) -> m < length (s_heap st).
Proof.
  intros [P1 P2 _] H. specialize (P1 m). specialize (P2 m). unfold occ in P2.
  assert (1 <= tot (one (Nat.eqb m)) (c_queue (get st q))).
  { pose proof (tot_in (one (Nat.eqb m)) _ _ H) as E. unfold one in E at 1. rewrite Nat.eqb_refl in E. exact E. }
  destruct q; lia.
Qed.

Lemma upd_at {A} (l : list A) t y fs k z : nth_error l t = Some y -> nth_error (upd l t fs) k = Some z ->
  (k = t /\ z = fs) \/ (k <> t /\ nth_error l k = Some z).
Proof.
  intros H. rewrite nth_error_upd. assert (L : t < length l) by (apply nth_error_Some; congruence).
  destruct (Nat.eqb_spec t k) as [->|]; [|auto].
  destruct (Nat.ltb_spec k (length l)); [|lia]. intros E. injection E as <-. auto.
Qed.

(** The frames of the messages about to be sent are old ones. *)
Lemma arg_step st st' t fs fs' (P : nat -> N -> N -> Prop) :
  nth_error (s_threads st) t = Some fs -> s_threads st' = upd (s_threads st) t fs' ->
  (forall to m ty d fb, In (SendLock to m ty d fb) fs' -> In (SendLock to m ty d fb) fs \/ P m ty d) ->
  (forall k gs to m ty d fb, nth_error (s_threads st) k = Some gs -> In (SendLock to m ty d fb) gs -> P m ty d) ->
  forall k gs to m ty d fb, nth_error (s_threads st') k = Some gs -> In (SendLock to m ty d fb) gs -> P m ty d.
Proof.
  intros H E F O k gs to m ty d fb H1 H2. rewrite E in H1. destruct (upd_at _ _ _ _ _ _ H H1) as [[-> ->]|[_ H1']].
  - destruct (F _ _ _ _ _ H2) as [H3|H3]; [eapply O; eauto|exact H3].
  - eapply O; eauto.
Qed.

Lemma order_step st e st' o out : places st out -> order st out -> trans st e st' o -> order st' (out ++ o).
Proof.
  intros PL [A F] T.
  assert (EXT : forall q h, (forall k, k < length (s_heap st) -> content h k = content (s_heap st) k) ->
                 flat_map (content h) (c_queue (get st q)) = waiting st q).
  { intros q h E. apply flat_map_same. intros k Hk. apply E. eapply queue_bound; eauto. }
  assert (SAME : forall st1 o1 m x x', s_heap st1 = upd (s_heap st) m x' -> nth_error (s_heap st) m = Some x -> m_type x' = m_type x -> m_data x' = m_data x ->
      (forall q, c_queue (get st1 q) = c_queue (get st q)) ->
      (forall k gs to m ty d fb, nth_error (s_threads st1) k = Some gs -> In (SendLock to m ty d fb) gs -> content (s_heap st) m = [(m, ty, d)]) ->
      (forall q, sent_to q o1 = [] /\ handled q o1 = []) -> order st1 (out ++ o1)).
  { intros st1 o1 m x x' H5 H1 H2 H3 H4 H6 H7. constructor.
    - intros. rewrite H5. rewrite (content_upd _ _ x); auto. eapply H6; eauto.
    - intros q. destruct (H7 q) as [H8 H9]. rewrite sent_to_app, handled_app, H8, H9, !app_nil_r, F, (waiting_content st1), H4. f_equal.
      symmetry. apply EXT. intros k _. rewrite H5. apply (content_upd _ _ x); auto. }
  assert (SUB : forall st1 t fs fs', nth_error (s_threads st) t = Some fs -> s_threads st1 = upd (s_threads st) t fs' ->
      (forall to m ty d fb, In (SendLock to m ty d fb) fs' -> In (SendLock to m ty d fb) fs) ->
      forall k gs to m ty d fb, nth_error (s_threads st1) k = Some gs -> In (SendLock to m ty d fb) gs -> content (s_heap st) m = [(m, ty, d)]).
  { intros st1 t fs fs' H1 H2 H3. apply (arg_step st st1 t fs fs' (fun m ty d => content (s_heap st) m = [(m, ty, d)])); auto. }
  destruct T.
  - (* refused *) constructor; [exact A|]. intros q. rewrite sent_to_app, handled_app, F. cbn [sent_to handled flat_map]. now rewrite !app_nil_r.
  - (* send *) constructor.
    + cbn [s_heap]. eapply (arg_step st _ t fs _ (fun m ty1 d1 => content (s_heap st ++ [msg_new ty d fb]) m = [(m, ty1, d1)])); [exact H|reflexivity| |].
      * intros to' m ty' d' fb' [E|E]; [|now left]. right. injection E as <- <- <- <- <-. unfold content.
        rewrite nth_error_app2, Nat.sub_diag by lia. reflexivity.
      * intros k gs to' m ty' d' fb' H1 H2. rewrite <- (A k gs to' m ty' d' fb' H1 H2). unfold content. rewrite nth_error_app1; [reflexivity|].
        apply nth_error_Some. pose proof (A k gs to' m ty' d' fb' H1 H2) as C. unfold content in C. destruct (nth_error (s_heap st) m); [discriminate|discriminate C].
    + intros q. rewrite app_nil_r, F. f_equal. symmetry. rewrite waiting_content. cbn [s_heap].
      replace (c_queue (get _ q)) with (c_queue (get st q)) by (destruct q; reflexivity). apply EXT. intros k Hk.
      unfold content. now rewrite nth_error_app1.
  - (* recv *) constructor.
    + eapply SUB; [exact H|reflexivity|]. intros ? ? ? ? ? [E|E]; [discriminate|exact E].
    + intros q. rewrite app_nil_r, F, !waiting_content. parts. reflexivity.
  - (* hold *) eapply (SAME _ _ m x); [reflexivity|exact H0|reflexivity|reflexivity|intros ?; parts; reflexivity|exact A|intros ?; split; reflexivity].
  - (* release *) eapply (SAME _ _ m x); [reflexivity|exact H0|reflexivity|reflexivity|intros ?; parts; reflexivity|exact A|intros ?; split; reflexivity].
  - (* full *) assert (E : m_type x' = m_type x /\ m_data x' = m_data x).
    { destruct fb; [apply unlock_same in H3; tauto|injection H3 as <-; auto]. }
    eapply (SAME _ _ m x); [reflexivity|exact H1|apply E|apply E|intros ?; parts; reflexivity| |intros ?; split; reflexivity].
    eapply SUB; [exact H|reflexivity|]. intros. now right.
  - (* queued *) constructor.
    + rewrite heap_set_thread, heap_put. eapply SUB; [exact H|parts; reflexivity|]. intros ? ? ? ? ? I. right. destruct fb; [destruct I as [I|I]; [discriminate|exact I]|exact I].
    + intros q. pose proof (A t _ to m ty d fb H (or_introl eq_refl)) as C.
      rewrite sent_to_app, handled_app, !waiting_content. parts.
      replace (handled q (Queued to m ty d fb :: (if fb then [] else [Sent t m false]))) with (@nil (nat * N * N)) by (destruct fb; reflexivity).
      replace (sent_to q (Queued to m ty d fb :: (if fb then [] else [Sent t m false]))) with (if side_eqb to q then [(m, ty, d)] else [])
        by (destruct fb; cbn [sent_to flat_map app]; now rewrite app_nil_r).
      rewrite app_nil_r, F, waiting_content, <- app_assoc. f_equal. subst c.
      destruct (side_eqb to q) eqn:S; [|now rewrite app_nil_r]. apply side_eqb_eq in S. subst to. cbn [c_queue].
      rewrite flat_map_app. cbn [flat_map]. now rewrite C, app_nil_r.
  - (* woken *) eapply (SAME _ _ m x); [reflexivity|exact H0|reflexivity|reflexivity|intros ?; parts; reflexivity| |intros ?; split; reflexivity].
    eapply SUB; [exact H|reflexivity|]. intros. now right.
  - (* locked *) constructor.
    + rewrite heap_set_thread, heap_put. eapply SUB; [exact H|parts; reflexivity|]. intros ? ? ? ? ? [E|E]; [discriminate|now right].
    + intros p. rewrite app_nil_r, F, !waiting_content. parts. subst c. destruct (side_eqb q p) eqn:S; [|reflexivity].
      apply side_eqb_eq in S. now subst.
  - (* called *) constructor.
    + rewrite heap_set_thread, heap_put. eapply SUB; [exact H|parts; reflexivity|]. intros ? ? ? ? ? [E|E]; [discriminate|now right].
    + intros p. rewrite sent_to_app, handled_app, F, !waiting_content. parts. cbn [sent_to handled flat_map app]. rewrite app_nil_r.
      subst c. destruct (side_eqb q p) eqn:S.
      * apply side_eqb_eq in S. subst p. rewrite H0. cbn [flat_map c_queue]. unfold content at 1. rewrite H1, <- app_assoc. reflexivity.
      * now rewrite app_nil_r.
  - (* received *) constructor.
    + rewrite heap_set_thread, heap_put. eapply SUB; [exact H|parts; reflexivity|]. intros ? ? ? ? ? E. now right.
    + intros p. rewrite sent_to_app, handled_app, F, !waiting_content. parts. cbn [sent_to handled flat_map app]. rewrite !app_nil_r.
      subst c. destruct (side_eqb q p) eqn:S; [|reflexivity]. apply side_eqb_eq in S. subst p. now rewrite H0.
  - (* left *) assert (E : m_type x' = m_type x /\ m_data x' = m_data x).
    { destruct (m_feedback x); [destruct (m_hold x); [injection H2 as <-; auto|apply unlock_same in H2; tauto]|injection H2 as <-; auto]. }
    eapply (SAME _ _ m x); [reflexivity|exact H0|apply E|apply E|intros ?; parts; reflexivity| |intros ?; split; reflexivity].
    eapply SUB; [exact H|reflexivity|]. intros ? ? ? ? ? [I|I]; [discriminate|now right].
Qed.

(** ** Locks, and the bytes in the sockets *)

Definition holds (c : chan) (t : nat) : bool := match c_owner c with Some u => Nat.eqb u t | None => false end.
Definition some_byte (c : chan) : N := match c_queue c with [] => 0%N | _ => 1%N end.
Definition flag (c : chan) (f : frame) : Prop :=
  match f with
  | Recv _ first _ | Handle _ first _ _ => c_bytes c = (if first then 1 else 0)%N /\ (first = false -> c_queue c = [])
  | _ => True
  end.

Record locks (st : state) : Prop := mkLk {
  l_own : forall t fs q, nth_error (s_threads st) t = Some fs -> tot (one (owns q)) fs = Nat.b2n (holds (get st q) t);
  l_flag : forall t fs f q, nth_error (s_threads st) t = Some fs -> In f fs -> owns q f = true -> flag (get st q) f;
  l_idle : forall q, c_owner (get st q) = None -> c_bytes (get st q) = some_byte (get st q);
  l_real : forall q t, c_owner (get st q) = Some t -> t < length (s_threads st)
}.

Lemma locks_init n : locks (init n).
Proof.
  constructor.
  - intros t fs q H. apply nth_error_In, repeat_spec in H. subst fs. destruct q; reflexivity.
  - intros t fs f q H. apply nth_error_In, repeat_spec in H. subst fs. intros [].
  - intros [|]; reflexivity.
  - intros [|] t; discriminate.
Qed.

Lemma locks_ext st st' : s_threads st' = s_threads st -> (forall q, get st' q = get st q) -> locks st -> locks st'.
Proof. intros E G [A B C D]. constructor; intros *; rewrite ?E, ?G; eauto. Qed.

Lemma locks_same st st' t fs fs' : nth_error (s_threads st) t = Some fs -> s_threads st' = upd (s_threads st) t fs' ->
  (forall q, get st' q = get st q) -> (forall q, tot (one (owns q)) fs' = tot (one (owns q)) fs) ->
  (forall f q, In f fs' -> owns q f = true -> In f fs \/ flag (get st q) f) -> locks st -> locks st'.
Proof.
  intros H E G S F [A B C D]. constructor; intros *; rewrite ?E, ?G; auto.
  - intros H1. destruct (upd_at _ _ _ _ _ _ H H1) as [[-> ->]|[_ H2]]; [rewrite S; apply A; exact H|apply A; exact H2].
  - intros H1 H2 H3. destruct (upd_at _ _ _ _ _ _ H H1) as [[-> ->]|[_ H4]]; [|eapply B; eauto].
    destruct (F _ _ H2 H3) as [H4|H4]; [eapply B; eauto|exact H4].
  - rewrite upd_length. apply D.
Qed.

Lemma owns_none q fs f : tot (one (owns q)) fs = 0 -> In f fs -> owns q f = true -> False.
Proof. intros H I E. pose proof (tot_in (one (owns q)) fs f I) as L. unfold one in L at 1. rewrite E in L. cbn [Nat.b2n] in L. lia. Qed.

Lemma locks_put st st' t fs fs' q c : nth_error (s_threads st) t = Some fs -> s_threads st' = upd (s_threads st) t fs' ->
  (forall p, get st' p = if side_eqb q p then c else get st p) ->
  c_owner (get st q) = None \/ c_owner (get st q) = Some t -> c_owner c = None \/ c_owner c = Some t ->
  (forall p, p <> q -> tot (one (owns p)) fs' = tot (one (owns p)) fs) ->
  tot (one (owns q)) fs' = Nat.b2n (holds c t) ->
  (forall f, In f fs' -> owns q f = true -> flag c f) ->
  (forall f p, In f fs' -> p <> q -> owns p f = true -> In f fs) ->
  (c_owner c = None -> c_bytes c = some_byte c) -> locks st -> locks st'.
Proof.
  intros H E G O1 O2 S1 S2 F1 F2 I [A B C D].
  assert (L : t < length (s_threads st)) by (apply nth_error_Some; congruence).
  assert (NQ : forall k gs, k <> t -> nth_error (s_threads st) k = Some gs -> tot (one (owns q)) gs = 0).
  { intros k gs Hk Hg. rewrite (A _ _ q Hg). unfold holds. destruct O1 as [->| ->]; [reflexivity|]. destruct (Nat.eqb_spec t k); [lia|reflexivity]. }
  constructor.
  - intros k gs p. rewrite E, G. intros H1. destruct (upd_at _ _ _ _ _ _ H H1) as [[-> ->]|[Hk H2]].
    + destruct (side_eqb q p) eqn:Sd; [apply side_eqb_eq in Sd; now subst p|].
      rewrite S1; [apply A; exact H|]. intros ->. rewrite side_eqb_refl in Sd. discriminate.
    + destruct (side_eqb q p) eqn:Sd; [|apply A; exact H2]. apply side_eqb_eq in Sd. subst p. rewrite (NQ _ _ Hk H2).
      unfold holds. destruct O2 as [->| ->]; [reflexivity|]. destruct (Nat.eqb_spec t k); [lia|reflexivity].
  - intros k gs f p. rewrite E, G. intros H1 H2 H3. destruct (upd_at _ _ _ _ _ _ H H1) as [[-> ->]|[Hk H4]].
    + destruct (side_eqb q p) eqn:Sd; [apply side_eqb_eq in Sd; subst p; auto|].
      assert (NE : p <> q) by (intros ->; rewrite side_eqb_refl in Sd; discriminate).
      exact (B _ _ f p H (F2 f p H2 NE H3) H3).
    + destruct (side_eqb q p) eqn:Sd; [|eapply B; eauto]. apply side_eqb_eq in Sd. subst p.
      exfalso. eapply owns_none; [exact (NQ _ _ Hk H4)|exact H2|exact H3].
  - intros p. rewrite G. destruct (side_eqb q p); [exact I|apply C].
  - intros p u. rewrite G, E, upd_length. destruct (side_eqb q p); [|apply D]. destruct O2 as [->| ->]; [discriminate|]. intros X. injection X as <-. exact L.
Qed.

Lemma side_neq p q : p <> q -> side_eqb q p = false.
Proof. destruct p, q; cbn [side_eqb]; congruence. Qed.

Lemma locks_step st e st' o : locks st -> trans st e st' o -> locks st'.
Proof.
  intros L T. pose proof L as [A B C D]. destruct T.
  - exact L.
  - eapply (locks_same st _ t fs); [exact H|reflexivity|intros [|]; reflexivity|intros q; reflexivity| |exact L].
    intros f q [<-|I]; [discriminate|now left].
  - eapply (locks_same st _ t fs); [exact H|reflexivity|intros [|]; reflexivity|intros q; reflexivity| |exact L].
    intros f q [<-|I]; [discriminate|now left].
  - apply (locks_ext st); [reflexivity|intros [|]; reflexivity|exact L].
  - apply (locks_ext st); [reflexivity|intros [|]; reflexivity|exact L].
  - eapply (locks_same st _ t _ fs); [exact H|reflexivity|intros [|]; reflexivity|intros q; reflexivity| |exact L].
    intros f q I. left. now right.
  - pose proof (A _ _ to H) as O. unfold holds in O. rewrite H0 in O. cbn [Nat.b2n tot] in O.
    assert (N : tot (one (owns to)) (if fb then SendWait m :: fs else fs) = 0) by (destruct fb; exact O).
    eapply (locks_put st _ t _ _ to c); [exact H|parts; reflexivity|intros p; parts; reflexivity|now left|subst c; now left| | | | | |exact L].
    + intros p _. destruct fb; reflexivity.
    + subst c. exact N.
    + intros f I E. exfalso. eapply owns_none; eauto.
    + intros f p I _ E. right. destruct fb; [destruct I as [<-|I]; [discriminate|exact I]|exact I].
    + intros _. subst c. cbn [c_bytes]. rewrite (C _ H0). unfold some_byte. cbn [c_queue]. destruct (c_queue (get st to)); reflexivity.
  - eapply (locks_same st _ t _ fs); [exact H|reflexivity|intros [|]; reflexivity|intros q; reflexivity| |exact L].
    intros f q I. left. now right.
  - pose proof (A _ _ q H) as O. unfold holds in O. rewrite H0 in O. cbn [Nat.b2n tot] in O.
    eapply (locks_put st _ t _ _ q c); [exact H|parts; reflexivity|intros p; parts; reflexivity|now left|subst c; now right| | | | | |exact L].
    + intros p NE. cbn [tot]. unfold one at 1 3. cbn [owns]. now rewrite side_neq.
    + subst c. unfold holds. cbn [c_owner tot]. rewrite Nat.eqb_refl. unfold one at 1. cbn [owns]. rewrite side_eqb_refl. cbn [Nat.b2n]. lia.
    + intros f [<-|I] E; [|exfalso; eapply owns_none; [|exact I|exact E]; lia].
      subst c. cbn [flag c_bytes c_queue]. rewrite (C _ H0). unfold some_byte. destruct (c_queue (get st q)); split; congruence.
    + intros f p [<-|I] NE E; [cbn [owns] in E; rewrite side_neq in E by auto; discriminate|now right].
    + subst c. discriminate.
  - pose proof (A _ _ q H) as O. cbn [tot] in O. unfold one at 1 in O. cbn [owns] in O. rewrite side_eqb_refl in O.
    assert (OW : c_owner (get st q) = Some t).
    { unfold holds in O. destruct (c_owner (get st q)) as [u|]; [|discriminate]. destruct (Nat.eqb_spec u t); [now subst|discriminate]. }
    unfold holds in O. rewrite OW, Nat.eqb_refl in O. cbn [Nat.b2n] in O.
    pose proof (B _ _ _ q H (or_introl eq_refl) (side_eqb_refl q)) as [F1 F2].
    eapply (locks_put st _ t _ _ q c); [exact H|parts; reflexivity|intros p; parts; reflexivity|now right|subst c; now right| | | | | |exact L].
    + intros p NE. reflexivity.
    + subst c. unfold holds. cbn [c_owner tot]. rewrite OW, Nat.eqb_refl. unfold one at 1. cbn [owns]. rewrite side_eqb_refl. cbn [Nat.b2n]. lia.
    + intros f [<-|I] E; [|exfalso; eapply owns_none; [|exact I|exact E]; lia].
      subst c. cbn [flag c_bytes c_queue]. split; [exact F1|]. intros X. rewrite (F2 X) in H0. discriminate.
    + intros f p [<-|I] NE E; [cbn [owns] in E; rewrite side_neq in E by auto; discriminate|now right].
    + subst c. cbn [c_owner]. congruence.
  - pose proof (A _ _ q H) as O. cbn [tot] in O. unfold one at 1 in O. cbn [owns] in O. rewrite side_eqb_refl in O.
    assert (OW : c_owner (get st q) = Some t).
    { unfold holds in O. destruct (c_owner (get st q)) as [u|]; [|discriminate]. destruct (Nat.eqb_spec u t); [now subst|discriminate]. }
    unfold holds in O. rewrite OW, Nat.eqb_refl in O. cbn [Nat.b2n] in O.
    pose proof (B _ _ _ q H (or_introl eq_refl) (side_eqb_refl q)) as [F1 F2].
    eapply (locks_put st _ t _ _ q c); [exact H|parts; reflexivity|intros p; parts; reflexivity|now right|subst c; now left| | | | | |exact L].
    + intros p NE. cbn [tot]. unfold one at 2. cbn [owns]. now rewrite side_neq.
    + subst c. unfold holds. cbn [c_owner]. lia.
    + intros f I E. exfalso. eapply owns_none; [|exact I|exact E]. lia.
    + intros f p I NE E. now right.
    + intros _. subst c. unfold some_byte. cbn [c_bytes c_queue]. rewrite F1. destruct first; reflexivity.
  - eapply (locks_same st _ t _ _); [exact H|reflexivity|intros [|]; reflexivity|intros p; reflexivity| |exact L].
    intros f p [<-|I] E; [|left; now right]. right. exact (B _ _ _ p H (or_introl eq_refl) E).
Qed.

(** ** What is received *)

Record counts (st : state) (out : list output) : Prop := mkCo {
  n_recv : forall q, tot (got q) out + frames (so_far q) (s_threads st) = tot (one (left_of q)) out;
  n_busy : forall q, length (handled q out) = tot (one (left_of q)) out + frames (one (busy q)) (s_threads st)
}.

Lemma counts_init n : counts (init n) [].
Proof.
  assert (Z : forall w : frame -> nat, frames w (repeat [] n) = 0).
  { intros w. unfold frames. induction n as [|n IH]; [reflexivity|]. cbn [repeat tot]. exact IH. }
  constructor; intros q; cbn [init s_threads]; rewrite Z; reflexivity.
Qed.

Lemma counts_step st e st' o out : counts st out -> trans st e st' o -> counts st' (out ++ o).
Proof.
  intros [A B] T. destruct T; try subst c;
    try match goal with H : nth_error _ _ = Some (SendLock _ _ _ _ ?fb :: _) |- _ => destruct fb end;
    (constructor; intros k; specialize (A k); specialize (B k)); rewrite ?tot_app, ?handled_app, ?app_length; parts;
    try match goal with H : nth_error (s_threads _) _ = _ |- context [so_far] => thread (so_far k) H end;
    try match goal with H : nth_error (s_threads _) _ = _ |- context [busy] => thread (one (busy k)) H end;
    cbn [s_threads handled flat_map app length] in *; unfold one in *; tots; rewrite ?app_nil_r; cbn [length]; try lia;
    destruct (side_eqb q k); cbn [Nat.b2n length app] in *; lia.
Qed.

(** ** Careful use *)

Definition msg_ok (w s q h l hd rl : nat) (x : msg) : Prop :=
  match m_mutex x with None => m_feedback x = false | Some _ => m_feedback x = true end /\
  (m_live x = false -> w = 0 /\ s = 0 /\ q = 0 /\ h = 0 /\ (m_feedback x = true -> 0 < l -> 0 < hd -> 0 < rl)) /\
  (m_live x = true -> m_feedback x = false -> s = 0 /\ w + q + h = 1) /\
  (m_live x = true -> m_feedback x = true -> w + s = 1 /\ m_hold x = (0 <? hd) /\
     (w + q + h = 1 -> m_mutex x = Some true) /\ (0 < l -> m_mutex x = Some (m_hold x && (rl =? 0)))).

Record care (st : state) (out : list output) : Prop := mkCa {
  k_msg : forall m x, nth_error (s_heap st) m = Some x ->
    msg_ok (frames (one (wants m)) (s_threads st)) (frames (one (waits m)) (s_threads st)) (occ m st) (frames (one (handles m)) (s_threads st))
           (tot (one (left_ m)) out) (tot (one (held m)) out) (tot (one (released m)) out) x;
  k_fb : forall t fs to m ty d fb, nth_error (s_threads st) t = Some fs -> In (SendLock to m ty d fb) fs ->
    exists x, nth_error (s_heap st) m = Some x /\ m_feedback x = fb;
  k_asked : forall m, 0 < tot (one (asked m)) out -> exists x, nth_error (s_heap st) m = Some x /\ m_feedback x = true;
  k_wait : forall m, frames (one (waits m)) (s_threads st) <= tot (one (queued m)) out;
  k_held : forall m, 0 < tot (one (held m)) out -> 0 < tot (one (called m)) out;
  k_rel : forall m, 0 < tot (one (released m)) out -> 0 < tot (one (left_ m)) out
}.

Lemma care_init n : care (init n) [].
Proof.
  assert (Z : forall w : frame -> nat, frames w (repeat [] n) = 0).
  { intros w. unfold frames. induction n as [|n IH]; [reflexivity|]. cbn [repeat tot]. exact IH. }
  constructor.
  - intros [|m] x; discriminate.
  - intros t fs to m ty d fb H. apply nth_error_In, repeat_spec in H. subst fs. intros [].
  - intros m; cbn [tot]; lia.
  - intros m. cbn [init s_threads]. rewrite Z. lia.
  - intros m; cbn [tot]; lia.
  - intros m; cbn [tot]; lia.
Qed.

Lemma in_frames (p : frame -> bool) st t fs f : nth_error (s_threads st) t = Some fs -> In f fs -> p f = true -> 0 < frames (one p) (s_threads st).
Proof.
  intros H I E. pose proof (frames_at (one p) _ _ _ H). pose proof (tot_in (one p) _ _ I) as L. unfold one in L at 1. rewrite E in L. cbn [Nat.b2n] in L. lia.
Qed.

Lemma in_occ st q m : In m (c_queue (get st q)) -> 0 < occ m st.
Proof.
  intros H. pose proof (tot_in (one (Nat.eqb m)) _ _ H) as E. unfold one in E at 1. rewrite Nat.eqb_refl in E. cbn [Nat.b2n] in E.
  unfold occ. destruct q; lia.
Qed.

Lemma care_safe st out e : places st out -> care st out -> may out e = true -> step st e <> Fault.
Proof.
  intros [P1 P2 P3] [K1 K2 K3 K4 K5 K6] M. unfold step.
  destruct (nth_error (s_threads st) (who e)) as [fs|] eqn:T; [|discriminate].
  assert (LIVE : forall m, 0 < frames (one (wants m)) (s_threads st) + frames (one (handles m)) (s_threads st) + occ m st ->
            exists x, nth_error (s_heap st) m = Some x /\ m_live x = true).
  { intros m H. specialize (P1 m). specialize (P2 m). specialize (P3 m). destruct (nth_error (s_heap st) m) as [x|] eqn:E.
    - exists x. split; [reflexivity|]. destruct (m_live x) eqn:L; [reflexivity|]. destruct (K1 m x E) as [_ [D _]]. specialize (D L). lia.
    - apply nth_error_None in E. destruct (Nat.ltb_spec m (length (s_heap st))); [lia|]. cbn [Nat.b2n] in P1. lia. }
  assert (AT : forall m x, nth_error (s_heap st) m = Some x -> m_live x = true -> msg_at st m = Some x).
  { intros m x E L. unfold msg_at. now rewrite E, L. }
  destruct e as [t ty d to fb mem|t from|t m|t m|t sent|t|t|t]; cbn [who may] in T, M |- *.
  - destruct (own_code fs); [|discriminate]. unfold call_send. destruct mem; discriminate.
  - destruct (own_code fs); discriminate.
  - destruct (own_code fs); [|discriminate]. rewrite !existsb_tot in M.
    destruct (LIVE m) as [x [E L]]; [specialize (P3 m); lia|]. unfold hold. rewrite (AT _ _ E L). discriminate.
  - destruct (own_code fs); [|discriminate]. rewrite !existsb_tot in M. destruct (K3 m) as [x [E F]]; [lia|].
    destruct (K1 m x E) as [_ [D [_ LF]]]. unfold release. destruct (m_live x) eqn:L.
    + rewrite (AT _ _ E L). destruct (LF eq_refl F) as [_ [HH [_ HM]]]. unfold unlock. rewrite HM by lia.
      assert (Y : m_hold x && (tot (one (released m)) out =? 0) = true) by (rewrite HH; apply andb_true_intro; lia).
      rewrite Y. discriminate.
    + destruct (D eq_refl) as [_ [_ [_ [_ R]]]]. exfalso. assert (0 < tot (one (released m)) out) by (apply R; [exact F|lia|lia]). lia.
  - destruct fs as [|[to m ty d fb|m|q|q first n|q first n m] fs]; try discriminate.
    + destruct (c_owner (get st to)); [discriminate|]. unfold lock_send.
      assert (W : 0 < frames (one (wants m)) (s_threads st)) by (eapply in_frames; [exact T|now left|apply Nat.eqb_refl]).
      destruct (match c_queue (get st to) with [] => true | _ => false end && negb sent); [|destruct fb; discriminate].
      destruct (LIVE m) as [x [E L]]; [lia|]. rewrite (AT _ _ E L). destruct fb; [|discriminate].
      destruct (K2 _ _ _ _ _ _ _ T (or_introl eq_refl)) as [x' [E' F]]. assert (x' = x) by congruence. subst x'.
      destruct (K1 m x E) as [_ [_ [_ LF]]]. destruct (LF L F) as [_ [_ [U _]]]. unfold unlock. rewrite U; [discriminate|].
      specialize (P1 m). specialize (P2 m). specialize (P3 m). destruct (m <? length (s_heap st)); cbn [Nat.b2n] in P1; lia.
    + destruct (c_owner (get st q)); [discriminate|]. unfold lock_recv. discriminate.
  - destruct fs as [|[to m ty d fb|m|q|q first n|q first n m] fs]; try discriminate. unfold wake.
    assert (W : 0 < frames (one (waits m)) (s_threads st)) by (eapply in_frames; [exact T|now left|apply Nat.eqb_refl]).
    destruct (nth_error (s_heap st) m) as [x|] eqn:E.
    + destruct (K1 m x E) as [U [D [NF LF]]]. destruct (m_live x) eqn:L; [|specialize (D eq_refl); lia].
      rewrite (AT _ _ E L). destruct (m_feedback x) eqn:F; [|specialize (NF eq_refl eq_refl); lia].
      destruct (m_mutex x) as [[|]|]; discriminate.
    + apply nth_error_None in E. specialize (P1 m). specialize (K4 m). destruct (Nat.ltb_spec m (length (s_heap st))); [lia|]. cbn [Nat.b2n] in P1. lia.
  - destruct fs as [|[to m ty d fb|m|q|q first n|q first n m] fs]; try discriminate. unfold next.
    destruct (c_queue (get st q)) as [|m rest] eqn:Q; [discriminate|].
    assert (0 < occ m st) by (eapply (in_occ st q); rewrite Q; now left).
    destruct (LIVE m) as [x [E L]]; [lia|]. rewrite (AT _ _ E L). discriminate.
  - destruct fs as [|[to m ty d fb|m|q|q first n|q first n m] fs]; try discriminate. unfold handler_return.
    assert (W : 0 < frames (one (handles m)) (s_threads st)) by (eapply in_frames; [exact T|now left|apply Nat.eqb_refl]).
    destruct (LIVE m) as [x [E L]]; [lia|]. rewrite (AT _ _ E L). destruct (m_feedback x) eqn:F; [|discriminate]. destruct (m_hold x); [discriminate|].
    destruct (K1 m x E) as [_ [_ [_ LF]]]. destruct (LF L F) as [_ [_ [U _]]]. unfold unlock. rewrite U; [discriminate|].
    specialize (P1 m). specialize (P2 m). specialize (P3 m). destruct (m <? length (s_heap st)); cbn [Nat.b2n] in P1; lia.
Qed.

Lemma msg_move w s q h l hd rl x w' s' q' h' : msg_ok w s q h l hd rl x ->
  w' + q' + h' = w + q + h -> (m_feedback x = true -> w' + s' = w + s) -> (m_feedback x = false -> s' = s) ->
  (w + q + h = 0 -> s' = s) -> msg_ok w' s' q' h' l hd rl x.
Proof.
  intros [A [B [C D]]] E1 E2 E3 E4. split; [exact A|]. split; [|split].
  - intros L. specialize (B L). repeat split; try lia. apply B.
  - intros L F. specialize (C L F). specialize (E3 F). lia.
  - intros L F. destruct (D L F) as [D1 [D2 [D3 D4]]]. specialize (E2 F). repeat split; auto; [lia|]. intros X. apply D3. lia.
Qed.

Lemma heap_at (h : list msg) m x x' k y : nth_error h m = Some x -> nth_error (upd h m x') k = Some y -> (k = m /\ y = x') \/ (k <> m /\ nth_error h k = Some y).
Proof. apply upd_at. Qed.

(** The numbers of one message after a step. *)
Ltac numbers k :=
  cbn [s_threads] in *;
  repeat match goal with
  | H : nth_error (s_threads ?s) ?t = Some ?fs |- context [frames ?w (upd (s_threads ?s) ?t ?fs')] =>
      lazymatch goal with
      | F : frames w (upd (s_threads s) t fs') + _ = _ |- _ => fail
      | _ => pose proof (frames_upd w (s_threads s) t fs fs' H)
      end
  end;
  try match goal with |- context [occ k (put ?s ?q ?c)] => pose proof (occ_put k s q c) end;
  try match goal with |- context [occ k (mkS ?h (s_io ?s) (s_user ?s) ?ths)] => change (occ k (mkS h (s_io s) (s_user s) ths)) with (occ k s) in * end;
  try match goal with H : c_queue _ = _ |- _ => rewrite H in * end;
  cbn [c_queue s_heap s_threads] in *; unfold one in *; tots; rewrite ?tot_app in *; tots.

Lemma care_msg st e st' o out : places st out -> care st out -> may out e = true -> trans st e st' o ->
  forall k x, nth_error (s_heap st') k = Some x ->
    msg_ok (frames (one (wants k)) (s_threads st')) (frames (one (waits k)) (s_threads st')) (occ k st') (frames (one (handles k)) (s_threads st'))
           (tot (one (left_ k)) (out ++ o)) (tot (one (held k)) (out ++ o)) (tot (one (released k)) (out ++ o)) x.
Proof.
  intros [P1 P2 P3] [K1 K2 K3 K4 K5 K6] M T k y E.
  pose proof (P1 k) as Q1. pose proof (P2 k) as Q2. pose proof (P3 k) as Q3. pose proof (K4 k) as Q4. pose proof (K5 k) as Q5. pose proof (K6 k) as Q6.
  assert (LE : Nat.b2n (k <? length (s_heap st)) <= 1) by (destruct (k <? length (s_heap st)); cbn [Nat.b2n]; lia).
  destruct T; try subst c; rewrite ?tot_app; rewrite ?occ_set_thread, ?occ_set_msg; parts; parts_in E.
  - pose proof (K1 k y E) as OK. unfold one in *. tots. rewrite !Nat.add_0_r. exact OK.
  - (* send *) cbn [s_heap] in E. destruct (Nat.lt_ge_cases k (length (s_heap st))) as [Hk|Hk].
    + rewrite nth_error_app1 in E by exact Hk. pose proof (K1 k y E) as OK. numbers k. rewrite !Nat.add_0_r.
      destruct (Nat.eqb_spec k (length (s_heap st))); [lia|]. cbn [Nat.b2n] in *. eapply msg_move; [exact OK|lia..].
    + assert (k = length (s_heap st)).
      { assert (k < length (s_heap st ++ [msg_new ty d fb])) by (apply nth_error_Some; congruence). rewrite app_length in *. cbn [length] in *. lia. }
      subst k. rewrite nth_error_app2, Nat.sub_diag in E by lia. injection E as <-. rewrite Nat.ltb_irrefl in *. cbn [Nat.b2n] in *.
      numbers (length (s_heap st)). rewrite Nat.eqb_refl in *. cbn [Nat.b2n] in *. cbn [may] in M.
      unfold msg_ok, msg_new. cbn [m_mutex m_feedback m_live m_hold].
      split; [|split; [discriminate|split]].
      * destruct (N.eqb_spec fb 0) as [->|]; [reflexivity|]. assert (fb = 1%N) as -> by lia. reflexivity.
      * intros _ _. lia.
      * intros _ F. split; [lia|]. split; [lia|]. split; [|lia]. intros _. destruct (N.eqb_spec fb 0) as [->|]; [discriminate|reflexivity].
  - (* recv *) pose proof (K1 k y E) as OK. numbers k. rewrite !Nat.add_0_r. eapply msg_move; [exact OK|lia..].
  - (* hold *) numbers k. rewrite !Nat.add_0_r. destruct (heap_at _ _ _ _ _ _ H0 E) as [[-> ->]|[NE E']].
    + cbn [may] in M. rewrite !existsb_tot in M. unfold one in M. pose proof (K1 m x H0) as [A [B [C D]]].
      rewrite Nat.eqb_refl. cbn [Nat.b2n]. unfold msg_ok. cbn [m_mutex m_feedback m_live m_hold]. split; [exact A|]. rewrite H1.
      split; [discriminate|]. split; [intros _; exact (C H1)|]. intros _ F. destruct (D H1 F) as [D1 [D2 [D3 D4]]]. split; [exact D1|].
      split; [symmetry; apply Nat.ltb_lt; lia|]. split; [exact D3|]. lia.
    + pose proof (K1 k y E') as OK. destruct (Nat.eqb_spec k m); [lia|]. cbn [Nat.b2n]. rewrite Nat.add_0_r. exact OK.
  - (* release *) numbers k. rewrite !Nat.add_0_r. destruct (heap_at _ _ _ _ _ _ H0 E) as [[-> ->]|[NE E']].
    + cbn [may] in M. rewrite !existsb_tot in M. unfold one in M. pose proof (K1 m x H0) as [A [B [C D]]]. rewrite H2 in A.
      rewrite Nat.eqb_refl. cbn [Nat.b2n]. unfold msg_ok. cbn [m_mutex m_feedback m_live m_hold]. split; [exact A|]. rewrite H1.
      split; [discriminate|]. split; [congruence|]. intros _ F. destruct (D H1 F) as [D1 [D2 [D3 D4]]]. split; [exact D1|].
      split; [exact D2|]. split; [lia|]. intros _. f_equal. symmetry. apply andb_false_intro2. apply Nat.eqb_neq. lia.
    + pose proof (K1 k y E') as OK. destruct (Nat.eqb_spec k m); [lia|]. cbn [Nat.b2n]. rewrite Nat.add_0_r. exact OK.
  - (* full *) numbers k. rewrite !Nat.add_0_r. destruct (heap_at _ _ _ _ _ _ H1 E) as [[-> ->]|[NE E']].
    + pose proof (K1 m x H1) as [A [B [C D]]]. rewrite Nat.eqb_refl in *. cbn [Nat.b2n] in *.
      assert (U : match m_mutex x' with None => m_feedback x' = false | Some _ => m_feedback x' = true end).
      { destruct fb; [|injection H3 as <-; exact A]. apply unlock_same in H3. destruct H3 as [_ [_ [F [_ [_ [U1 U2]]]]]]. rewrite U1 in A. rewrite U2. congruence. }
      unfold msg_ok, msg_free. cbn [m_mutex m_feedback m_live m_hold]. split; [exact U|]. split; [|split; discriminate].
      intros _. destruct (m_feedback x) eqn:F; [specialize (D H2 eq_refl); lia|specialize (C H2 eq_refl); lia].
    + pose proof (K1 k y E') as OK. destruct (Nat.eqb_spec k m); [lia|]. cbn [Nat.b2n] in *. eapply msg_move; [exact OK|lia..].
  - (* queued *) pose proof (K1 k y E) as OK. destruct (K2 _ _ _ _ _ _ _ H (or_introl eq_refl)) as [x [E' F]].
    destruct fb; numbers k; rewrite !Nat.add_0_r.
    + eapply msg_move; [exact OK|lia|lia| |].
      * intros F'. destruct (Nat.eqb_spec k m) as [->|]; [congruence|]. cbn [Nat.b2n] in *. lia.
      * intros Z. destruct (Nat.eqb_spec k m) as [->|]; cbn [Nat.b2n] in *; lia.
    + eapply msg_move; [exact OK|lia| |lia|lia].
      intros F'. destruct (Nat.eqb_spec k m) as [->|]; [congruence|]. cbn [Nat.b2n] in *. lia.
  - (* woken *) numbers k. rewrite !Nat.add_0_r. destruct (heap_at _ _ _ _ _ _ H0 E) as [[-> ->]|[NE E']].
    + pose proof (K1 m x H0) as [A [B [C D]]]. rewrite Nat.eqb_refl in *. cbn [Nat.b2n] in *. rewrite H2 in A. destruct (D H1 A) as [D1 [D2 [D3 D4]]].
      unfold msg_ok, msg_free. cbn [m_mutex m_feedback m_live m_hold]. rewrite H2. split; [exact A|]. split; [|split; discriminate].
      intros _. assert (frames (fun x => Nat.b2n (wants m x)) (s_threads st) + occ m st + frames (fun x => Nat.b2n (handles m x)) (s_threads st) <> 1).
      { intros X. specialize (D3 X). congruence. }
      repeat split; try lia. intros _ G1 G2. specialize (D4 G1). rewrite H2 in D4. injection D4 as D4. rewrite D2 in D4.
      destruct (Nat.eq_dec (tot (fun x => Nat.b2n (released m x)) out) 0) as [Z|Z]; [|lia]. rewrite Z in D4. symmetry in D4.
      apply andb_false_iff in D4. destruct D4 as [D4|D4]; [apply Nat.ltb_ge in D4; lia|discriminate].
    + pose proof (K1 k y E') as OK. destruct (Nat.eqb_spec k m); [lia|]. cbn [Nat.b2n] in *. eapply msg_move; [exact OK|lia..].
  - (* locked *) pose proof (K1 k y E) as OK. numbers k. rewrite !Nat.add_0_r. eapply msg_move; [exact OK|lia..].
  - (* called *) pose proof (K1 k y E) as OK. numbers k. rewrite !Nat.add_0_r. eapply msg_move; [exact OK|lia..].
  - (* received *) pose proof (K1 k y E) as OK. numbers k. rewrite !Nat.add_0_r. eapply msg_move; [exact OK|lia..].
  - (* left *) numbers k. rewrite !Nat.add_0_r. destruct (heap_at _ _ _ _ _ _ H0 E) as [[-> ->]|[NE E']].
    + pose proof (K1 m x H0) as [A [B [C D]]]. rewrite Nat.eqb_refl in *. cbn [Nat.b2n] in *. destruct (m_feedback x) eqn:F.
      * destruct (D H1 eq_refl) as [D1 [D2 [D3 D4]]]. destruct (m_hold x) eqn:HD.
        -- injection H2 as <-. unfold msg_ok. rewrite H1, F, HD. split; [exact A|]. split; [discriminate|]. split; [discriminate|].
           intros _ _. split; [lia|]. split; [exact D2|]. split; [lia|]. intros _. rewrite D3 by lia. f_equal. symmetry. cbn [andb]. apply Nat.eqb_eq. lia.
        -- apply unlock_same in H2. destruct H2 as [_ [_ [U1 [U2 [U3 [U4 U5]]]]]]. unfold msg_ok. rewrite U5, U1, U3, U2, F, H1, HD.
           split; [reflexivity|]. split; [discriminate|]. split; [discriminate|].
           intros _ _. split; [lia|]. split; [exact D2|]. split; [lia|]. intros _. reflexivity.
      * injection H2 as <-. unfold msg_ok, msg_free. cbn [m_mutex m_feedback m_live m_hold]. rewrite F. split; [exact A|]. split; [|split; discriminate].
        intros _. specialize (C H1 eq_refl). repeat split; try lia.
    + pose proof (K1 k y E') as OK. destruct (Nat.eqb_spec k m); [lia|]. cbn [Nat.b2n] in *. rewrite !Nat.add_0_r. eapply msg_move; [exact OK|lia..].
Qed.

Lemma care_step st e st' o out : places st out -> care st out -> may out e = true -> trans st e st' o -> care st' (out ++ o).
Proof.
  intros PL CA M T. pose proof (care_msg _ _ _ _ _ PL CA M T) as KM. destruct PL as [P1 P2 P3]. destruct CA as [K1 K2 K3 K4 K5 K6].
  assert (HP : forall m x, nth_error (s_heap st) m = Some x -> exists x', nth_error (s_heap st') m = Some x' /\ m_feedback x' = m_feedback x).
  { intros m' x0 E.
    assert (UPD : forall m x x', nth_error (s_heap st) m = Some x -> m_feedback x' = m_feedback x ->
              exists z, nth_error (upd (s_heap st) m x') m' = Some z /\ m_feedback z = m_feedback x0).
    { intros m x x' H1 H2. rewrite nth_error_upd. assert (m < length (s_heap st)) by (apply nth_error_Some; congruence).
      destruct (Nat.eqb_spec m m') as [->|]; [|eauto]. destruct (Nat.ltb_spec m' (length (s_heap st))); [|lia]. exists x'. split; [reflexivity|congruence]. }
    destruct T; parts; try (exists x0; split; [exact E|reflexivity]).
    - cbn [s_heap]. rewrite nth_error_app1 by (apply nth_error_Some; congruence). eauto.
    - eapply UPD; [eassumption|reflexivity].
    - eapply UPD; [eassumption|reflexivity].
    - eapply UPD; [eassumption|]. cbn [msg_free m_feedback]. destruct fb; [apply unlock_same in H3; tauto|injection H3 as <-; reflexivity].
    - eapply UPD; [eassumption|reflexivity].
    - eapply UPD; [eassumption|]. destruct (m_feedback x) eqn:F; [destruct (m_hold x)|]; [injection H2 as <-; exact F| |injection H2 as <-; exact F].
      apply unlock_same in H2. destruct H2 as [_ [_ [H2 _]]]. congruence. }
  constructor.
  - exact KM.
  - assert (SUB : forall t fs fs', nth_error (s_threads st) t = Some fs -> s_threads st' = upd (s_threads st) t fs' ->
      (forall to m ty d fb, In (SendLock to m ty d fb) fs' -> In (SendLock to m ty d fb) fs) ->
      forall k gs to m ty d fb, nth_error (s_threads st') k = Some gs -> In (SendLock to m ty d fb) gs ->
        exists x, nth_error (s_heap st') m = Some x /\ m_feedback x = fb).
    { intros t fs fs' H1 H2 H3 k gs to m ty d fb H4 H5. rewrite H2 in H4.
      assert (X : exists gs', nth_error (s_threads st) k = Some gs' /\ In (SendLock to m ty d fb) gs').
      { destruct (upd_at _ _ _ _ _ _ H1 H4) as [[-> ->]|[_ H6]]; eauto. }
      destruct X as [gs' [H6 H7]]. destruct (K2 _ _ _ _ _ _ _ H6 H7) as [x [E F]]. destruct (HP _ _ E) as [x' [E' F']]. exists x'. split; [exact E'|congruence]. }
    destruct T.
    + exact K2.
    + intros k gs to' m ty' d' fb' H4 H5. cbn [s_threads] in H4. destruct (upd_at _ _ _ _ _ _ H H4) as [[-> ->]|[_ H6]].
      * destruct H5 as [X|H5].
        -- injection X as <- <- <- <- <-. exists (msg_new ty d fb). cbn [s_heap]. rewrite nth_error_app2, Nat.sub_diag by lia. split; [reflexivity|].
           cbn [may] in M. unfold msg_new. cbn [m_feedback]. destruct (N.eqb_spec fb 0) as [->|]; [reflexivity|]. assert (fb = 1%N) as -> by lia. reflexivity.
        -- destruct (K2 _ _ _ _ _ _ _ H H5) as [x [E F]]. destruct (HP _ _ E) as [x' [E' F']]. exists x'. split; [exact E'|congruence].
      * destruct (K2 _ _ _ _ _ _ _ H6 H5) as [x [E F]]. destruct (HP _ _ E) as [x' [E' F']]. exists x'. split; [exact E'|congruence].
    + eapply SUB; [exact H|reflexivity|]. intros ? ? ? ? ? [X|X]; [discriminate|exact X].
    + intros k gs to m' ty d fb H4 H5. destruct (K2 _ _ _ _ _ _ _ H4 H5) as [x0 [E F]]. destruct (HP _ _ E) as [x' [E' F']]. exists x'. split; [exact E'|congruence].
    + intros k gs to m' ty d fb H4 H5. destruct (K2 _ _ _ _ _ _ _ H4 H5) as [x0 [E F]]. destruct (HP _ _ E) as [x' [E' F']]. exists x'. split; [exact E'|congruence].
    + eapply SUB; [exact H|reflexivity|]. intros. now right.
    + eapply SUB; [exact H|parts; reflexivity|]. intros ? ? ? ? ? X. right. destruct fb; [destruct X as [X|X]; [discriminate|exact X]|exact X].
    + eapply SUB; [exact H|reflexivity|]. intros. now right.
    + eapply SUB; [exact H|parts; reflexivity|]. intros ? ? ? ? ? [X|X]; [discriminate|now right].
    + eapply SUB; [exact H|parts; reflexivity|]. intros ? ? ? ? ? [X|X]; [discriminate|now right].
    + eapply SUB; [exact H|parts; reflexivity|]. intros. now right.
    + eapply SUB; [exact H|reflexivity|]. intros ? ? ? ? ? [X|X]; [discriminate|now right].
  - intros k Hk. rewrite tot_app in Hk.
    assert (X : 0 < tot (one (asked k)) out \/ exists to ty d, In (Queued to k ty d true) o).
    { destruct (Nat.eq_dec (tot (one (asked k)) o) 0) as [Z|Z]; [left; lia|right].
      destruct (tot_pos (one (asked k)) o) as [x [X1 X2]]; [lia|]. unfold one in X2. destruct x; cbn [asked Nat.b2n] in X2; try lia.
      destruct fb; [|cbn [Nat.b2n] in X2; lia]. destruct (Nat.eqb_spec k m) as [<-|]; [eauto|cbn [Nat.b2n] in X2; lia]. }
    destruct X as [X|[to [ty [d X]]]].
    + destruct (K3 k X) as [x [E F]]. destruct (HP _ _ E) as [x' [E' F']]. exists x'. split; [exact E'|congruence].
    + assert (Y : exists t fs, nth_error (s_threads st) t = Some fs /\ In (SendLock to k ty d true) fs).
      { destruct T; cbn [In] in X; try (exfalso; repeat destruct X as [X|X]; discriminate || contradiction).
        destruct X as [X|X]; [injection X as -> -> -> -> ->; eauto using in_eq|]. exfalso. destruct fb; [destruct X|destruct X as [X|[]]; discriminate]. }
      destruct Y as [t [fs [Y1 Y2]]]. destruct (K2 _ _ _ _ _ _ _ Y1 Y2) as [x [E F]]. destruct (HP _ _ E) as [x' [E' F']]. exists x'. split; [exact E'|congruence].
  - intros k. specialize (K4 k). clear KM HP. destruct T; try subst c;
      try match goal with H : nth_error _ _ = Some (SendLock _ _ _ _ ?fb :: _) |- _ => destruct fb end; parts; rewrite ?tot_app; numbers k; lia.
  - intros k. specialize (K5 k). specialize (P3 k). clear KM HP. destruct T; try subst c;
      try match goal with H : nth_error _ _ = Some (SendLock _ _ _ _ ?fb :: _) |- _ => destruct fb end; rewrite ?tot_app; unfold one in *; tots; try lia.
    destruct (Nat.eqb_spec k m) as [->|]; cbn [Nat.b2n]; [|lia]. cbn [may] in M. rewrite !existsb_tot in M. unfold one in M. lia.
  - intros k. specialize (K6 k). clear KM HP. destruct T; try subst c;
      try match goal with H : nth_error _ _ = Some (SendLock _ _ _ _ ?fb :: _) |- _ => destruct fb end; rewrite ?tot_app; unfold one in *; tots; try lia.
    destruct (Nat.eqb_spec k m) as [->|]; cbn [Nat.b2n]; [|lia]. cbn [may] in M. rewrite !existsb_tot in M. unfold one in M. lia.
Qed.

(** ** Whole histories *)

Record good (st : state) (out : list output) : Prop := mkG {
  g_places : places st out;
  g_order : order st out;
  g_locks : locks st;
  g_counts : counts st out
}.

Lemma good_init n : good (init n) [].
Proof. constructor; [apply places_init|apply order_init|apply locks_init|apply counts_init]. Qed.

Lemma good_step st e st' o out : good st out -> step st e = Done st' o -> good st' (out ++ o).
Proof.
  intros [A B C D] H. apply step_trans in H. constructor;
    [eapply places_step|eapply order_step|eapply locks_step|eapply counts_step]; eauto.
Qed.

Lemma good_run : forall es st out st' o, good st out -> run st es = Done st' o -> good st' (out ++ o).
Proof.
  induction es as [|e es IH]; intros st out st' o G H; cbn [run] in H.
  - injection H as <- <-. now rewrite app_nil_r.
  - destruct (step st e) as [st1 o1| |] eqn:E; try discriminate. destruct (run st1 es) as [st2 o2| |] eqn:R; try discriminate.
    injection H as <- <-. rewrite app_assoc. eapply IH; [|exact R]. eapply good_step; eauto.
Qed.

Lemma safe_run : forall es st out, good st out -> care st out -> careful out st es = true -> run st es <> Fault.
Proof.
  induction es as [|e es IH]; intros st out G K C; cbn [run careful] in *; [discriminate|].
  apply andb_prop in C. destruct C as [M C]. pose proof (care_safe _ _ _ (g_places _ _ G) K M) as S.
  destruct (step st e) as [st1 o1| |] eqn:E; [|discriminate|congruence].
  assert (X : run st1 es <> Fault).
  { apply (IH st1 (out ++ o1)); [eapply good_step; eauto| |exact C]. eapply care_step; eauto; [apply G|now apply step_trans]. }
  destruct (run st1 es); congruence.
Qed.

Lemma care_run : forall es st out st' o, good st out -> care st out -> careful out st es = true -> run st es = Done st' o -> care st' (out ++ o).
Proof.
  induction es as [|e es IH]; intros st out st' o G K C H; cbn [run careful] in *.
  - injection H as <- <-. now rewrite app_nil_r.
  - apply andb_prop in C. destruct C as [M C]. destruct (step st e) as [st1 o1| |] eqn:E; try discriminate.
    destruct (run st1 es) as [st2 o2| |] eqn:R; try discriminate. injection H as <- <-. rewrite app_assoc.
    eapply IH; [eapply good_step; eauto| |exact C|exact R]. eapply care_step; eauto; [apply G|now apply step_trans].
Qed.

(** When [mln_iothread_send] comes back with feedback. *)
Lemma sent_step st out e st' o t m o1 o2 : places st out -> care st out -> step st e = Done st' o -> o = o1 ++ Sent t m true :: o2 ->
  o1 = [] /\ 0 < tot (one (left_ m)) out /\ (0 < tot (one (held m)) out -> 0 < tot (one (released m)) out).
Proof.
  intros [P1 P2 P3] [K1 K2 K3 K4 K5 K6] H E. apply step_trans in H.
  assert (I : In (Sent t m true) o) by (rewrite E; apply in_elt).
  destruct H; cbn [In] in I; try (exfalso; repeat destruct I as [I|I]; discriminate || contradiction).
  - exfalso. destruct I as [I|I]; [discriminate|]. destruct fb; [destruct I|destruct I as [I|[]]; discriminate].
  - destruct I as [I|[]]. injection I as -> ->. split.
    { destruct o1 as [|? o1]; [reflexivity|]. injection E as _ E. destruct o1; discriminate. }
    pose proof (K1 m x H0) as [A [_ [_ D]]]. rewrite H2 in A. destruct (D H1 A) as [D1 [D2 [D3 D4]]].
    assert (W : 0 < frames (one (waits m)) (s_threads st)) by (eapply in_frames; [exact H|now left|apply Nat.eqb_refl]).
    specialize (P1 m). specialize (P2 m). specialize (P3 m). specialize (K4 m).
    assert (L : 0 < tot (one (left_ m)) out).
    { destruct (Nat.eq_dec (frames (one (wants m)) (s_threads st) + occ m st + frames (one (handles m)) (s_threads st)) 1) as [Z|Z].
      - specialize (D3 Z). congruence.
      - destruct (m <? length (s_heap st)); cbn [Nat.b2n] in P1; lia. }
    split; [exact L|]. intros HD. specialize (D4 L). rewrite H2 in D4. injection D4 as D4. rewrite D2 in D4. symmetry in D4.
    apply andb_false_iff in D4. destruct D4 as [D4|D4]; [apply Nat.ltb_ge in D4; lia|apply Nat.eqb_neq in D4; lia].
Qed.

Lemma split_app {A} : forall (a b c d : list A) x, a ++ b = c ++ x :: d ->
  (exists d1, a = c ++ x :: d1 /\ d = d1 ++ b) \/ (exists c1, c = a ++ c1 /\ b = c1 ++ x :: d).
Proof.
  induction a as [|y a IH]; intros b c d x H.
  - right. exists c. auto.
  - destruct c as [|z c]; injection H as -> H.
    + left. exists a. auto.
    + destruct (IH _ _ _ _ H) as [[d1 [-> ->]]|[c1 [-> ->]]]; [left; exists d1|right; exists c1]; auto.
Qed.

Lemma sent_run : forall es st out st' o t m o1 o2, good st out -> care st out -> careful out st es = true ->
  run st es = Done st' o -> o = o1 ++ Sent t m true :: o2 ->
  0 < tot (one (left_ m)) (out ++ o1) /\ (0 < tot (one (held m)) (out ++ o1) -> 0 < tot (one (released m)) (out ++ o1)).
Proof.
  induction es as [|e es IH]; intros st out st' o t m o1 o2 G K C H E; cbn [run careful] in *.
  - injection H as <- <-. destruct o1; discriminate.
  - apply andb_prop in C. destruct C as [M C]. destruct (step st e) as [st1 oa| |] eqn:S; try discriminate.
    destruct (run st1 es) as [st2 ob| |] eqn:R; try discriminate. injection H as _ H. rewrite <- H in E.
    destruct (split_app _ _ _ _ _ E) as [[d1 [E1 E2]]|[c1 [E1 E2]]].
    + destruct (sent_step _ _ _ _ _ _ _ _ _ (g_places _ _ G) K S E1) as [-> X]. rewrite app_nil_r. exact X.
    + subst o1. rewrite app_assoc. eapply (IH st1 (out ++ oa)); [eapply good_step; eauto| |exact C|exact R|exact E2].
      eapply care_step; eauto; [apply G|now apply step_trans].
Qed.

(** ** Calls and what comes of them *)
Definition from_call (past : list event) (t : nat) (f : frame) : Prop :=
  match f with
  | SendLock to m ty d fb => nth_error (calls past) m = Some (ty, d, to, fb)
  | RecvLock q | Recv q _ _ | Handle q _ _ _ => exists from, In (CallRecv t from) past /\ from <> q
  | SendWait _ => True
  end.
Definition out_call (past : list event) (o : output) : Prop :=
  match o with
  | Queued to m ty d fb => nth_error (calls past) m = Some (ty, d, to, fb)
  | Called t q _ _ _ | Received t q _ => exists from, In (CallRecv t from) past /\ from <> q
  | _ => True
  end.
Definition called_for (past : list event) (st : state) : Prop :=
  length (s_heap st) = length (calls past) /\ forall t fs, nth_error (s_threads st) t = Some fs -> Forall (from_call past t) fs.
Lemma calls_app a b : calls (a ++ b) = calls a ++ calls b.
Proof. apply flat_map_app. Qed.
Lemma from_more past e t f : from_call past t f -> from_call (past ++ [e]) t f.
Proof.
  destruct f as [to m ty d fb|m|q|q b n|q b n m]; cbn [from_call]; auto.
  - intros H. rewrite calls_app, nth_error_app1; [exact H|]. apply nth_error_Some. congruence.
  - intros (from & I & N). exists from. split; [apply in_or_app; auto|exact N].
  - intros (from & I & N). exists from. split; [apply in_or_app; auto|exact N].
  - intros (from & I & N). exists from. split; [apply in_or_app; auto|exact N].
Qed.
Lemma upd_nth {A} : forall (l : list A) t x u y, nth_error (upd l t x) u = Some y -> (u = t /\ y = x) \/ nth_error l u = Some y.
Proof.
  induction l as [|a l IH]; intros t x u y H; [destruct t; auto|]. destruct t as [|t], u as [|u]; cbn [upd nth_error] in H |- *; auto.
  - injection H as <-. auto.
  - destruct (IH t x u y H) as [[-> ->]|G]; auto.
Qed.
Lemma called_upd past past' st st' t fs' : called_for past st -> length (s_heap st') = length (calls past') -> (forall u f, from_call past u f -> from_call past' u f) ->
  s_threads st' = upd (s_threads st) t fs' -> Forall (from_call past' t) fs' -> called_for past' st'.
Proof.
  intros [L F] H M T G. split; [exact H|]. intros u fs U. rewrite T in U. apply upd_nth in U. destruct U as [[-> ->]|U]; [exact G|].
  eapply Forall_impl; [intros f; apply M|]. apply F. exact U.
Qed.
Lemma called_step past st e st' out : called_for past st -> trans st e st' out -> called_for (past ++ [e]) st' /\ Forall (out_call (past ++ [e])) out.
Proof.
  intros C T. pose proof (fun u f => from_more past e u f) as M. destruct C as [L F].
  assert (K : forall t fs, nth_error (s_threads st) t = Some fs -> Forall (from_call (past ++ [e]) t) fs).
  { intros t fs H. eapply Forall_impl; [intros f; apply M|]. apply F, H. }
  assert (S : calls [e] = [] -> length (calls (past ++ [e])) = length (s_heap st)) by (intros S; rewrite calls_app, S, app_nil_r; lia).
  destruct T as [t fs ty d to fb H|t fs ty d to fb H|t fs from H|t fs m x H|t fs m x H|t fs to m ty d fb x x' H|t fs to m ty d fb sent c H|t fs m x H|t fs q sent c H|t fs q first n m rest x c H|t fs q first n c H|t fs q first n m x x' H].
  - split; [|repeat constructor]. split; [rewrite S by reflexivity; reflexivity|exact K].
  - split; [|constructor]. apply (called_upd past _ st _ t (SendLock to (length (s_heap st)) ty d (negb (fb =? 0)%N) :: fs)); [split; assumption| |exact M|reflexivity|].
    + cbn [s_heap]. rewrite calls_app, !app_length. cbn. lia.
    + constructor; [|apply K, H]. cbn [from_call]. rewrite L, calls_app, nth_error_app2, Nat.sub_diag by lia. reflexivity.
  - split; [|constructor]. apply (called_upd past _ st _ t (RecvLock (recv_side from) :: fs)); [split; assumption|rewrite S by reflexivity; reflexivity|exact M|reflexivity|].
    constructor; [|apply K, H]. cbn [from_call]. exists from. split; [apply in_or_app; right; left; reflexivity|]. destruct from; discriminate.
  - split; [|repeat constructor]. split; [rewrite S by reflexivity; cbn [set_msg s_heap]; apply upd_length|exact K].
  - split; [|repeat constructor]. split; [rewrite S by reflexivity; cbn [set_msg s_heap]; apply upd_length|exact K].
  - split; [|repeat constructor]. apply (called_upd past _ st _ t fs); [split; assumption|rewrite S by reflexivity; cbn [set_msg set_thread s_heap]; apply upd_length|exact M|reflexivity|].
    apply (Forall_inv_tail (K _ _ H)).
  - pose proof (K _ _ H) as G. split.
    + apply (called_upd past _ st _ t (if fb then SendWait m :: fs else fs)); [split; assumption|rewrite S by reflexivity; cbn [set_thread s_heap]; rewrite heap_put; reflexivity|exact M|cbn [set_thread s_threads]; rewrite threads_put; reflexivity|].
      apply Forall_inv_tail in G. destruct fb; [constructor; [exact I|exact G]|exact G].
    + constructor; [exact (Forall_inv G)|]. destruct fb; repeat constructor.
  - split; [|repeat constructor]. apply (called_upd past _ st _ t fs); [split; assumption|rewrite S by reflexivity; cbn [set_msg set_thread s_heap]; apply upd_length|exact M|reflexivity|].
    apply (Forall_inv_tail (K _ _ H)).
  - split; [|repeat constructor]. pose proof (K _ _ H) as G. eapply (called_upd past _ st _ t); [split; assumption|rewrite S by reflexivity; cbn [set_thread s_heap]; rewrite heap_put; reflexivity|exact M|cbn [set_thread s_threads]; rewrite threads_put; reflexivity|].
    constructor; [exact (Forall_inv G)|exact (Forall_inv_tail G)].
  - pose proof (K _ _ H) as G. split; [|constructor; [exact (Forall_inv G)|constructor]].
    eapply (called_upd past _ st _ t); [split; assumption|rewrite S by reflexivity; cbn [set_thread s_heap]; rewrite heap_put; reflexivity|exact M|cbn [set_thread s_threads]; rewrite threads_put; reflexivity|].
    constructor; [exact (Forall_inv G)|exact (Forall_inv_tail G)].
  - pose proof (K _ _ H) as G. split; [|constructor; [exact (Forall_inv G)|constructor]].
    eapply (called_upd past _ st _ t); [split; assumption|rewrite S by reflexivity; cbn [set_thread s_heap]; rewrite heap_put; reflexivity|exact M|cbn [set_thread s_threads]; rewrite threads_put; reflexivity|exact (Forall_inv_tail G)].
  - split; [|repeat constructor]. pose proof (K _ _ H) as G. eapply (called_upd past _ st _ t); [split; assumption|rewrite S by reflexivity; cbn [set_msg set_thread s_heap]; apply upd_length|exact M|reflexivity|].
    constructor; [exact (Forall_inv G)|exact (Forall_inv_tail G)].
Qed.
Lemma out_more past e o : out_call past o -> out_call (past ++ [e]) o.
Proof.
  destruct o; cbn [out_call]; auto.
  - intros H. rewrite calls_app, nth_error_app1; [exact H|]. apply nth_error_Some. congruence.
  - intros (from & I & N). exists from. split; [apply in_or_app; auto|exact N].
  - intros (from & I & N). exists from. split; [apply in_or_app; auto|exact N].
Qed.
Lemma called_run : forall es past st st' out, called_for past st -> run st es = Done st' out -> called_for (past ++ es) st' /\ Forall (out_call (past ++ es)) out.
Proof.
  induction es as [|e es IH]; intros past st st' out C H; cbn [run] in H.
  - injection H as <- <-. rewrite app_nil_r. auto.
  - destruct (step st e) as [st1 o1| |] eqn:S; try discriminate. destruct (run st1 es) as [st2 o2| |] eqn:R; try discriminate. injection H as <- <-.
    destruct (called_step _ _ _ _ _ C (step_trans _ _ _ _ S)) as [C1 F1]. destruct (IH _ _ _ _ C1 R) as [C2 F2]. rewrite <- app_assoc in C2, F2. cbn [app] in C2, F2.
    split; [exact C2|]. apply Forall_app. split; [|exact F2].
    assert (Y : forall es past o, out_call past o -> out_call (past ++ es) o).
    { clear. induction es as [|e es IH]; intros past o O; [rewrite app_nil_r; exact O|]. replace (past ++ e :: es) with ((past ++ [e]) ++ es) by (rewrite <- app_assoc; reflexivity).
      apply IH, out_more, O. }
    eapply Forall_impl; [|exact F1]. intros o O. cbn beta in O. replace (past ++ e :: es) with ((past ++ [e]) ++ es) by (rewrite <- app_assoc; reflexivity). apply Y, O.
Qed.
Lemma called_init n : called_for [] (init n).
Proof.
  split; [reflexivity|]. intros t fs H. cbn [init s_threads] in H. apply nth_error_In, repeat_spec in H. subst. constructor.
Qed.

(** * Messages between threads: the theorems *)
Require Import List Arith NArith Bool Lia.
Require Import ZifyBool ZifyNat ZifyN.
Require Import Verif.Base Verif.ThrModel Verif.ThrSpec Verif.ThrProofs.
Import ListNotations.
Open Scope N_scope.

(** ** Messages arrive *)
(** Some threads are made, of which the a-th and the b-th do not end, and then anything happens: threads write bytes in any portions, other threads
    come, end and start again, the sockets give and take as few bytes as they like. Names of threads differ. Then what thread [b] was given by thread
    [a] are the first messages that [a] wrote for [b], whole and in order; and when the socket of [a] is read out and nothing waits to be sent to [b],
    it is all of them. *)
Theorem thread_fifo : forall l h s a b na nb ra rb, nth_error l a = Some (na, ra) -> nth_error l b = Some (nb, rb) ->
  NoDup (map fst l ++ flat_map created h) -> run init (map (fun x => Create (fst x) (snd x)) l ++ h) = Ok s -> Forall (stays a) h -> Forall (stays b) h ->
  exists more, map body (filter (sent_to (strings s) nb) (messages (wrote a h))) = map body (filter (sent_by (strings s) na) (messages (given s b))) ++ more /\
    (all_read s a -> idle s b -> more = []).
Proof.
  intros l h s a b na nb ra rb A B D E SA SB. change (map (fun x => Create (fst x) (snd x)) l) with (map make l) in E. rewrite run_app in E. apply andthen_ok in E as (s0 & E0 & E).
  destruct (thread_news l init) as (s1 & E1 & S1 & J1 & K1 & L1); [reflexivity|]. assert (s1 = s0) as -> by congruence. cbn [init ids Nat.add] in L1.
  assert (D0 : NoDup ([] ++ flat_map created (map make l))). { cbn [app]. replace (flat_map created (map make l)) with (map fst l); [|induction l as [|x l IH]; [reflexivity|]; cbn [map flat_map make created app]; f_equal; clear - l; induction l as [|y l IH]; [reflexivity|]; cbn [map flat_map make created app]; now f_equal].
    revert D. clear. induction (map fst l) as [|x k IH]; intros D; [constructor|]. cbn [app] in D. inversion D; subst. constructor; [|auto]. intros X. apply H1. apply in_or_app. now left. }
  destruct (run_ok _ _ _ _ inv_init D0 E0) as (I0 & _). cbn [app] in I0. replace (flat_map created (map make l)) with (map fst l) in I0; [|clear; induction l as [|y l IH]; [reflexivity|]; cbn [map flat_map make created app]; now f_equal].
  destruct (run_ok _ _ _ _ I0 D E) as (I & F).
  assert (F0 : fifo s0 a b na nb []).
  { exists (fresh a na ra), []. split; [exact (L1 _ _ _ A)|]. split; [reflexivity|]. split; [reflexivity|]. exists (fresh b nb rb), []. split; [exact (L1 _ _ _ B)|]. repeat split; constructor. }
  destruct (F _ _ _ _ _ SA SB F0) as (ta & R & TA & NA & EW & tb & M & TB & NB & EM & FM & FR & Q). cbn [app] in EW. unfold given, all_read, idle. rewrite TA, TB.
  assert (WM : Forall whole M) by (eapply Forall_impl; [|exact FM]; intros m X; exact (proj1 X)). assert (WR : Forall whole R) by (eapply Forall_impl; [|exact FR]; intros m X; exact (proj1 X)).
  rewrite EW, messages_app by exact WR. destruct (messages_prefix M (got tb) (left tb ++ concat (map what (dest tb))) WM EM) as (k & EK & Z).
  rewrite filter_app, map_app. exists (map body (filter (sent_by (strings s) na) k) ++ map body (filter (sent_to (strings s) nb) (messages (held (rcv ta) ++ unread ta)))). split.
  - rewrite app_assoc. f_equal. rewrite <- map_app, <- filter_app. unfold bytes in *. rewrite Q, EK. reflexivity.
  - intros U AR. rewrite U, app_nil_r. destruct I as [(_ & _ & _ & FI) SH]. rewrite (messages_short _ (SH _ _ TA)). destruct (FI _ _ TB) as (_ & X & _). destruct (X AR) as [X1 X2]. rewrite Z; [reflexivity|]. now rewrite X1, X2.
Qed.
Print Assumptions thread_fifo.

(** Whatever happens, what a thread was given since it started last are messages for it, each from a thread there is or was, and at the end perhaps a
    part of one. *)
Theorem thread_sound : forall h s b t, NoDup (flat_map created h) -> run init h = Ok s -> thread s b = Some t ->
  Forall (fun m => length m = 72%nat /\ sent_to (strings s) (name t) m = true /\ exists n, In n (flat_map created h) /\ sent_by (strings s) n m = true) (messages (given s b)).
Proof.
  intros h s b t D E T. destruct (run_ok h init s [] inv_init D E) as ((I & _) & _). cbn [app] in I. destruct I as (_ & _ & _ & F). destruct (F _ _ T) as (_ & _ & M & E0 & G). unfold given. rewrite T.
  destruct (messages_prefix M (got t) (left t ++ concat (map what (dest t)))) as (k & EK & _); [eapply Forall_impl; [|exact G]; intros m X; exact (proj1 X)|exact E0|]. rewrite EK in G. apply Forall_app in G as [G _]. exact G.
Qed.
Print Assumptions thread_sound.
(** Three threads. The first writes two messages for the second, one for itself and one for nobody, in odd portions; the third writes one for the second and
    ends while it waits there. *)
Definition name_a : bytes := [97]. Definition name_b : bytes := [98]. Definition name_c : bytes := [99].
Definition msg (d x : N) : bytes := [d; 0; 0; 0; 0; 0; 0; 0] ++ repeat 0 8 ++ repeat x 56.
Definition three : list (bytes * bool) := [(name_a, true); (name_b, false); (name_c, false)].
Definition thread_history : list op :=
  [Make name_b; Make name_a; Make [120]; Make name_b; Make name_b;
   Write 0 (firstn 100 (msg 1 7 ++ msg 2 8)); Receive 0 [30; 40; 500]%nat Later;
   Write 2 (msg 4 9); Receive 2 [72]%nat Later; Send 1 [Took 10]%nat; Receive 2 [] Closed;
   Write 0 (skipn 28 (msg 2 8) ++ msg 3 1 ++ msg 5 2); Receive 0 [1; 1000]%nat Later; Send 0 [Took 72]%nat; Send 1 (repeat (Took 20) 20)].
Example thread_ex_history : NoDup (map fst three ++ flat_map created thread_history) /\ Forall (stays 0) thread_history /\ Forall (stays 1) thread_history /\
  match run init (map (fun x => Create (fst x) (snd x)) three ++ thread_history) with
  | Ok s => all_read s 0 /\ idle s 1 /\ length (given s 1) = (3 * 72)%nat /\ thread s 2 = None /\
            map body (filter (sent_by (strings s) name_a) (messages (given s 1))) = [body (msg 1 7); body (msg 5 2)] /\
            map body (filter (sent_by (strings s) name_c) (messages (given s 1))) = [body (msg 4 9)] /\
            map body (filter (sent_by (strings s) name_a) (messages (given s 0))) = [body (msg 2 8)]
  | Fault _ => False
  end.
Proof.
  split; [repeat constructor; cbn; intuition discriminate|]. split; [|split].
  - unfold thread_history. repeat (constructor; [cbn [stays]; try exact I; try (intros X; first [discriminate X|reflexivity|intros Y; cbn in Y; repeat (destruct Y as [Y|Y]; [discriminate|]); destruct Y])|]); constructor.
  - unfold thread_history. repeat (constructor; [cbn [stays]; try exact I; try (intros X; first [discriminate X|reflexivity|intros Y; cbn in Y; repeat (destruct Y as [Y|Y]; [discriminate|]); destruct Y])|]); constructor.
  - vm_compute. repeat split.
Qed.

(** ** Nothing waits for ever *)
(** At any time, if the socket of a thread has room, one call of the handler gives it all that waits for it. *)
Theorem thread_flush : forall h s b t ws, NoDup (flat_map created h) -> run init h = Ok s -> thread s b = Some t -> ~ In Broke ws ->
  (length (left t ++ concat (map what (dest t))) <= length ws)%nat ->
  exists s', run init (h ++ [Send b ws]) = Ok s' /\ idle s' b /\ given s' b = got t ++ left t ++ concat (map what (dest t)).
Proof.
  intros h s b t ws D E T N L. destruct (run_ok h init s [] inv_init D E) as (I & _). pose proof (run_safe h init tidy_init) as TD. rewrite E in TD. cbn [safe] in TD. rewrite run_app, E. cbn [andthen run step].
  pose proof (send_safe s b ws TD) as SF. destruct (proj2 (proj2 (proj2 (proj1 I))) _ _ T) as (_ & AR & _). unfold send in *. rewrite T in *. destruct (armed t) eqn:A.
  - pose proof (pump_enough (dest t) ws (gone t) (left t) N L) as EN. destruct (pump_ok (dest t) ws (gone t) (left t)) as (P1 & P2 & _ & P4). destruct (P2 EN) as [P5 P6]. rewrite EN in *. set (r := pump ws (gone t) (left t) (dest t)) in *. rewrite P5, P6 in *. cbn [map concat] in P1. rewrite !app_nil_r in P1.
    match type of SF with safe (andthen (unlink_all ?x _) _) => set (s1 := x) in * end. destruct (unlink_all s1 (off r)) as [s2|f] eqn:U; cbn [andthen] in *.
    + exists s2. split; [reflexivity|]. apply unlink_all_alike in U. assert (T1 : thread s1 b = Some (mkT (tid t) (name t) (restart t) (unread t) (rcv t) (local t) [] (pgone r) [] (got t ++ written r) false)) by (unfold s1; rewrite thread_change, T, Nat.eqb_refl by reflexivity; reflexivity).
      destruct (core_eq s1 s2 b _ (eq_sym (alike_thread _ _ b U)) T1) as (t2 & T2 & C2). unfold idle, given. rewrite T2. change (armed t2) with (armed (core t2)). change (got t2) with (got (core t2)). rewrite C2. cbn [core armed got]. now rewrite P1.
    + exfalso. clear - U SF TD T P4 P6. destruct TD as [B0 L0]. pose proof (perm_change s b (fun u => mkT (tid u) (name u) (restart u) (unread u) (rcv u) (local u) [] (pgone r) [] (got u ++ written r) false) t (proj1 B0) T (fun _ => eq_refl)) as P. cbn [dest] in P. rewrite app_nil_r in P. rewrite app_nil_r in P4. rewrite <- P4 in P.
      destruct (unlink_all_links (off r) s1 (all s1)) as (s2 & E2 & _); [apply base_change; [reflexivity|exact B0]| |congruence]. eapply links_perm; [exact P|]. eapply links_same; [| |exact L0]; [reflexivity|]. intros d. unfold s1. rewrite thread_change by reflexivity. destruct (thread s d) as [u|]; [|reflexivity]. destruct (Nat.eqb d b); reflexivity.
  - exists s. split; [reflexivity|]. unfold idle, given. rewrite T. split; [exact A|]. destruct (AR eq_refl) as [-> ->]. cbn [map concat app]. now rewrite app_nil_r.
Qed.
Print Assumptions thread_flush.
Example thread_ex_flush : match run init [Create name_a false; Create name_b false; Make name_b; Make name_b; Write 0 (msg 1 7 ++ msg 2 8); Receive 0 [200]%nat Later; Send 1 [Took 5]%nat] with
  | Ok s => match thread s 1 with Some t => length (left t ++ concat (map what (dest t))) = 139%nat /\ length (got t) = 5%nat | None => False end
  | Fault _ => False end.
Proof. vm_compute. auto. Qed.

(** ** Lists of messages *)
(** Whatever happens, threads with the same name too: no message is taken off a list it is not in, and no thread that is no more is looked into. The
    sender that a waiting message names is a thread that has it on its list, and on the list of a thread are only messages that wait and name it. *)
Theorem thread_links : forall h, run init h <> Fault BadLink /\ run init h <> Fault NoFuel /\
  forall s, run init h = Ok s ->
    (forall t i a, In t (threads s) -> In i (dest t) -> from i = Some a -> exists u, thread s a = Some u /\ In (key i) (local u)) /\
    (forall a u k, thread s a = Some u -> In k (local u) -> exists t i, In t (threads s) /\ In i (dest t) /\ key i = k /\ from i = Some a).
Proof.
  intros h. pose proof (run_safe h init tidy_init) as R. destruct (run init h) as [s|f]; cbn [safe] in R.
  - split; [discriminate|]. split; [discriminate|]. intros s0 [= <-]. destruct R as [_ (_ & _ & A & B)]. split.
    + intros t i a T I F. apply (A i a); [|exact F]. unfold all. apply in_flat_map. eauto.
    + intros a u k U K. destruct (B a u k U K) as (i & I & J). unfold all in I. apply in_flat_map in I as (t & T & I). eauto.
  - destruct R as [R1 R2]. split; [congruence|]. split; [congruence|]. intros s [=].
Qed.
Print Assumptions thread_links.
Example thread_ex_links : match run init [Create name_a false; Create name_b false; Make name_b; Make name_b; Write 0 (msg 1 7); Write 1 (msg 2 8); Receive 0 [72]%nat Later; Receive 1 [72]%nat Later; Receive 0 [] Closed] with
  | Ok s => map (fun t => (local t, map (fun i => (key i, from i)) (dest t))) (threads s) = [([1%nat], [(0%nat, None); (1%nat, Some 1%nat)])]
  | Fault _ => False end.
Proof. vm_compute. auto. Qed.

(** ** Threads that end *)
(** When a thread ends, what others were given and what waits for them stays as it is; messages from the thread that ended too. *)
Theorem thread_end_others : forall s a ta ks e s', thread s a = Some ta -> e = Failed \/ (e = Closed /\ snd (pieces ks (unread ta)) = []) -> step s (Receive a ks e) = Ok s' ->
  forall d td, d <> a -> thread s d = Some td -> exists td', thread s' d = Some td' /\ got td' = got td /\ left td' = left td /\ map what (dest td') = map what (dest td) /\ armed td' = armed td.
Proof.
  intros s a ta ks e s' T EE E d td N TD. cbn [step] in E. unfold receive in E. rewrite T in E. destruct (pieces ks (unread ta)) as [c l]. cbn [snd] in EE. set (s1 := change s a _) in E.
  assert (X : exits s1 a = Ok s') by (destruct EE as [-> |[-> ->]]; exact E). apply exits_ok in X. assert (T1 : thread s1 d = Some td). { unfold s1. rewrite thread_change, TD by reflexivity. now replace (Nat.eqb d a) with false by lia. }
  destruct (core_eq s1 s' d td (exits_other _ _ _ d X N) T1) as (td' & T' & C). exists td'. split; [exact T'|]. change (got td') with (got (core td')). change (left td') with (left (core td')). change (armed td') with (armed (core td')). rewrite C. repeat split.
  apply (f_equal (fun t => map what (dest t))) in C. cbn [core dest] in C. rewrite !map_map in C. exact C.
Qed.
Print Assumptions thread_end_others.
Example thread_ex_end : match run init [Create name_a false; Create name_b false; Make name_b; Write 0 (msg 1 7); Receive 0 [72]%nat Later] with
  | Ok s => match step s (Receive 0 [] Closed) with Ok s' => match thread s' 1 with Some t => length (map what (dest t)) = 1%nat | None => False end | Fault _ => False end
  | Fault _ => False end.
Proof. vm_compute. auto. Qed.

(** ** What goes wrong *)
(** A thread writes a whole message and ends. If both are seen at once, the message is thrown away, though nothing is left to be read or sent. *)
Theorem thread_last_words_refuted : ~ (forall l h s a b na nb ra rb, nth_error l a = Some (na, ra) -> nth_error l b = Some (nb, rb) ->
  NoDup (map fst l ++ flat_map created h) -> run init (map (fun x => Create (fst x) (snd x)) l ++ h) = Ok s -> Forall (stays b) h -> all_read s a -> idle s b ->
  map body (filter (sent_to (strings s) nb) (messages (wrote a h))) = map body (filter (sent_by (strings s) na) (messages (given s b)))).
Proof.
  intros H. specialize (H three [Make name_b; Write 0 (msg 1 7); Receive 0 [72]%nat Closed]).
  destruct (run init (map (fun x => Create (fst x) (snd x)) three ++ [Make name_b; Write 0 (msg 1 7); Receive 0 [72]%nat Closed])) as [s|f] eqn:E; [|vm_compute in E; discriminate].
  specialize (H s 0%nat 1%nat name_a name_b true false eq_refl eq_refl). vm_compute in E. injection E as <-.
  assert (D : NoDup (map fst three ++ flat_map created [Make name_b; Write 0 (msg 1 7); Receive 0 [72]%nat Closed])) by (repeat constructor; cbn; intuition discriminate).
  specialize (H D eq_refl ltac:(repeat constructor; discriminate) eq_refl eq_refl). vm_compute in H. discriminate.
Qed.
Print Assumptions thread_last_words_refuted.
(** A message waits for a thread that ends and is started again: there is a thread of that name all the time, but the message is thrown away. *)
Theorem thread_restart_refuted : ~ (forall h s b t ks s' t', NoDup (flat_map created h) -> run init h = Ok s -> thread s b = Some t -> restart t = true -> step s (Receive b ks Closed) = Ok s' ->
  thread s' b = Some t' -> map what (dest t') = map what (dest t)).
Proof.
  intros H. set (h := [Create name_a true; Create name_b false; Make name_a; Write 1 (msg 1 7); Receive 1 [72]%nat Later]).
  assert (X : match run init h with
    | Ok s => match thread s 0, step s (Receive 0 [] Closed) with
        | Some t, Ok s' => match thread s' 0 with Some t' => restart t = true /\ length (dest t) = 1%nat /\ length (dest t') = 0%nat | None => False end
        | _, _ => False end
    | Fault _ => False end) by (vm_compute; auto).
  destruct (run init h) as [s|] eqn:E; [|exact X]. destruct (thread s 0) as [t|] eqn:T; [|exact X]. destruct (step s (Receive 0 [] Closed)) as [s'|] eqn:E'; [|exact X]. destruct (thread s' 0) as [t'|] eqn:T'; [|exact X]. destruct X as (R & X1 & X2).
  pose proof (H h s 0%nat t [] s' t' ltac:(repeat constructor; cbn; intuition discriminate) E T R E' T') as Y. apply (f_equal (@List.length _)) in Y. rewrite !map_length in Y. congruence.
Qed.
Print Assumptions thread_restart_refuted.
(** A thread is killed in the midst of writing a message. The message before that one was given to another thread long ago; its name is freed though, since the buffer begins with it. *)
Theorem thread_free_refuted : ~ (forall h s b m, (forall p, ~ In (Free p) h) -> NoDup (flat_map created h) -> run init h = Ok s -> In m (messages (given s b)) -> ~ In (dest_of m) (freed s)).
Proof.
  intros H. specialize (H [Create name_a false; Create name_b false; Make name_b; Write 0 (msg 1 7 ++ firstn 28 (msg 1 8)); Receive 0 [100]%nat Later; Send 1 [Took 72]%nat; Receive 0 [] Closed]).
  match type of H with forall s b m, _ -> _ -> run init ?h = _ -> _ => destruct (run init h) as [s|f] eqn:E; [|vm_compute in E; discriminate] end. specialize (H s 1%nat).
  vm_compute in E. injection E as <-. eapply H.
  - intros p X. repeat (destruct X as [X|X]; [discriminate|]). destruct X.
  - repeat constructor; cbn; intuition discriminate.
  - reflexivity.
  - vm_compute. left. reflexivity.
  - vm_compute. left. reflexivity.
Qed.
Print Assumptions thread_free_refuted.
(** A message that names no thread, not even one that is unknown, brings the program down. *)
Theorem thread_null_refuted : ~ (forall h, (forall a l, In (Write a l) h -> Forall (fun m => dest_of m = 0) (messages l)) -> run init h <> Fault BadString).
Proof.
  intros H. apply (H [Create name_a false; Write 0 (msg 0 7); Receive 0 [72]%nat Later]); [|vm_compute; reflexivity]. intros a l [X|[X|[X|[]]]]; try discriminate. injection X as <- <-. vm_compute. repeat constructor.
Qed.
Print Assumptions thread_null_refuted.

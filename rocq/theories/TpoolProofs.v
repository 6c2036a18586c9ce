(** * Thread pool: proofs *)

From Coq Require Import List Arith NArith Bool Lia Permutation ZifyBool ZifyNat ZifyN.
From Verif Require Import Base TpoolModel TpoolSpec.
Import ListNotations.
Local Open Scope N_scope.

(** ** Counting *)

Definition b2n (b : bool) : N := if b then 1 else 0.

Lemma count_cons f w ws : count f (w :: ws) = b2n (f w) + count f ws.
Proof. unfold count. cbn [filter]. destruct (f w); cbn [length b2n]; lia. Qed.

Lemma count_app f ws ws' : count f (ws ++ ws') = count f ws + count f ws'.
Proof. unfold count. rewrite filter_app, app_length. lia. Qed.

Lemma count_upd f w' : forall ws t w, nth_error ws t = Some w ->
  count f (upd ws t w') + b2n (f w) = count f ws + b2n (f w').
Proof.
  induction ws as [|x ws IH]; intros [|t] w H; cbn [nth_error] in H; try discriminate.
  - injection H as ->. cbn [upd]. rewrite !count_cons. lia.
  - cbn [upd]. rewrite !count_cons. specialize (IH t w H). lia.
Qed.

Lemma count_le f g ws : (forall w, f w = true -> g w = true) -> count f ws <= count g ws.
Proof.
  intros H. induction ws as [|w ws IH]; [reflexivity|]. rewrite !count_cons. specialize (H w).
  destruct (f w), (g w); cbn [b2n]; try lia; discriminate (H eq_refl).
Qed.

Lemma count_lt f g ws t w : (forall w, f w = true -> g w = true) -> nth_error ws t = Some w -> f w = false -> g w = true ->
  count f ws + 1 <= count g ws.
Proof.
  intros H. revert t. induction ws as [|x ws IH]; intros [|t] E F G; cbn [nth_error] in E; try discriminate.
  - injection E as ->. rewrite !count_cons, F, G. pose proof (count_le f g ws H). cbn [b2n]. lia.
  - rewrite !count_cons. specialize (IH t E F G). specialize (H x).
    destruct (f x), (g x); cbn [b2n]; try lia; discriminate (H eq_refl).
Qed.

Lemma count_ge f ws t w : nth_error ws t = Some w -> f w = true -> 1 <= count f ws.
Proof.
  revert t. induction ws as [|x ws IH]; intros [|t] E F; cbn [nth_error] in E; try discriminate.
  - injection E as ->. rewrite count_cons, F. cbn [b2n]. lia.
  - rewrite count_cons. specialize (IH t E F). lia.
Qed.

Lemma count_pos f ws : 1 <= count f ws -> exists t w, nth_error ws t = Some w /\ f w = true.
Proof.
  induction ws as [|x ws IH]; intros H; [unfold count in H; cbn in H; lia|].
  rewrite count_cons in H. destruct (f x) eqn:E.
  - exists 0%nat, x. auto.
  - cbn [b2n] in H. destruct (IH ltac:(lia)) as (t & w & A & B). exists (S t), w. auto.
Qed.

Lemma count_map f g ws : (forall w, In w ws -> f (g w) = f w) -> count f (map g ws) = count f ws.
Proof.
  induction ws as [|x ws IH]; intros H; [reflexivity|]. cbn [map]. rewrite !count_cons, H by now left. rewrite IH; [reflexivity|].
  intros w Hw. apply H. now right.
Qed.

(** ** The chain *)

Definition memb (ws : list worker) (t : nat) : bool := match nth_error ws t with Some w => member w | None => false end.
Definition ids (ws : list worker) : list nat := filter (memb ws) (seq 0 (length ws)).

Lemma ids_upd_same ws t w w' : nth_error ws t = Some w -> member w' = member w -> ids (upd ws t w') = ids ws.
Proof.
  intros H E. unfold ids. rewrite upd_length. apply filter_ext. intros i. unfold memb.
  destruct (Nat.eq_dec i t) as [->|ne].
  - rewrite nth_error_upd_eq by (apply nth_error_Some; congruence). now rewrite H.
  - now rewrite nth_error_upd_neq by auto.
Qed.

Lemma filter_filter {A} (f g : A -> bool) l : filter f (filter g l) = filter (fun x => g x && f x) l.
Proof. induction l as [|x l IH]; [reflexivity|]. cbn [filter]. destruct (g x); cbn [filter andb]; rewrite IH; reflexivity. Qed.

Lemma ids_upd_leave ws t w w' : nth_error ws t = Some w -> member w' = false ->
  ids (upd ws t w') = filter (fun x => negb (Nat.eqb x t)) (ids ws).
Proof.
  intros H E. unfold ids. rewrite upd_length, filter_filter. apply filter_ext. intros i. unfold memb.
  destruct (Nat.eqb_spec i t) as [->|ne].
  - rewrite nth_error_upd_eq by (apply nth_error_Some; congruence). rewrite E. now rewrite andb_false_r.
  - rewrite nth_error_upd_neq by auto. now rewrite andb_true_r.
Qed.

Lemma ids_app ws w : ids (ws ++ [w]) = ids ws ++ (if member w then [length ws] else []).
Proof.
  unfold ids. rewrite app_length. cbn [length]. rewrite seq_app, filter_app. cbn [seq Nat.add]. f_equal.
  - apply filter_ext_in. intros i Hi. apply in_seq in Hi. unfold memb. now rewrite nth_error_app1 by lia.
  - cbn [filter]. unfold memb at 1. rewrite nth_error_app2 by lia. rewrite Nat.sub_diag. cbn [nth_error]. reflexivity.
Qed.

Lemma ids_map g ws : (forall w, In w ws -> member (g w) = member w) -> ids (map g ws) = ids ws.
Proof.
  intros H. unfold ids. rewrite map_length. apply filter_ext. intros i. unfold memb. rewrite nth_error_map.
  destruct (nth_error ws i) as [w|] eqn:E; [|reflexivity]. cbn [option_map]. apply H. eapply nth_error_In; eauto.
Qed.

Lemma filter_S t l : filter (fun x => negb (Nat.eqb x (S t))) (map S l) = map S (filter (fun x => negb (Nat.eqb x t)) l).
Proof. induction l as [|x l IH]; [reflexivity|]. cbn [map filter Nat.eqb]. destruct (Nat.eqb x t); cbn [negb map]; now rewrite IH. Qed.

Lemma filter_0 l : filter (fun x => negb (Nat.eqb x 0)) (map S l) = map S l.
Proof. induction l as [|x l IH]; [reflexivity|]. cbn [map filter Nat.eqb negb]. now rewrite IH. Qed.

Lemma ids_none ws : count member ws = 0 -> ids ws = [].
Proof.
  intros H. unfold ids. destruct (filter _ _) as [|i l] eqn:E; [reflexivity|].
  assert (Hi : In i (filter (memb ws) (seq 0 (length ws)))) by (rewrite E; now left).
  apply filter_In in Hi. destruct Hi as [_ M]. unfold memb in M. destruct (nth_error ws i) as [w|] eqn:N; [|discriminate].
  pose proof (count_ge member ws i w N M). lia.
Qed.

(** ** The invariant *)

Definition worker_ok (w : worker) : Prop :=
  match w_place w with
  | Locking to => w_data w = 0 /\ (to = true -> w_idle w = true)
  | Waiting | Unborn => w_data w = 0 /\ w_idle w = true
  | Processing => w_data w <> 0 /\ w_idle w = false
  | Leaving => True
  | Gone => w_data w = 0
  end.

Definition open (st : state) : N := match s_main st with Closed => 0 | _ => 1 end.

Record Inv (max : N) (st : state) : Prop := mkI {
  i_max : p_max (s_pool st) = max;
  i_counter : p_counter (s_pool st) = open st + count member (s_workers st);
  i_idle : p_idle (s_pool st) = open st + count idle_member (s_workers st);
  i_chain : p_chain (s_pool st) = (match s_main st with Closed => [] | _ => [0%nat] end) ++ map S (ids (s_workers st));
  i_nres : s_main st <> Closed -> p_nres (s_pool st) = N.of_nat (length (p_queue (s_pool st)));
  i_bound : p_counter (s_pool st) <= N.max 1 (inc max);
  i_ok : Forall worker_ok (s_workers st);
  i_phase : match s_main st with InHandler | Polling => True | Exiting | Closed => count member (s_workers st) = 0 end;
  i_quit : s_main st <> InHandler -> p_quit (s_pool st) = true
}.

Lemma inc_lt x : inc x < 2 ^ 32.
Proof. unfold inc. apply N.mod_lt. discriminate. Qed.
Lemma inc_small x : x + 1 < 2 ^ 32 -> inc x = x + 1.
Proof. intros H. unfold inc. apply N.mod_small. exact H. Qed.
Lemma dec_small x : 1 <= x -> x < 2 ^ 32 -> dec x = x - 1.
Proof.
  intros H1 H2. unfold dec. replace (x + (2 ^ 32 - 1)) with (x - 1 + 1 * 2 ^ 32) by lia. rewrite N.mod_add by discriminate.
  apply N.mod_small. lia.
Qed.

Lemma idle_is_member w : idle_member w = true -> member w = true.
Proof. unfold idle_member, member. destruct (w_place w); auto; discriminate. Qed.

Lemma nth_ok ws t w : Forall worker_ok ws -> nth_error ws t = Some w -> worker_ok w.
Proof. intros F H. rewrite Forall_forall in F. apply F. eapply nth_error_In; eauto. Qed.

Lemma Forall_upd {A} (P : A -> Prop) ws t w : Forall P ws -> P w -> Forall P (upd ws t w).
Proof.
  intros F Hw. revert t. induction F as [|x l Hx F IH]; intros [|t]; cbn [upd]; constructor; auto.
Qed.

Lemma init_inv max : Inv max (init max).
Proof.
  constructor; unfold init, pool_new, member_join, open; cbn [s_pool s_workers s_main p_max p_counter p_idle p_chain p_nres p_queue p_quit];
    try reflexivity; try congruence; try exact Logic.I.
  - change (inc 0) with 1. apply N.le_max_l.
  - constructor.
Qed.

Lemma signal_cases ws woken ws' : signal ws woken = Some ws' ->
  (ws' = ws /\ existsb is_waiting ws = false) \/
  (exists t w, nth_error ws t = Some w /\ is_waiting w = true /\ ws' = upd ws t (mkW (Locking false) (w_idle w) (w_data w))).
Proof.
  unfold signal. destruct woken as [t|].
  - destruct (nth_error ws t) as [w|] eqn:E; cbn [obind]; [|discriminate]. destruct (is_waiting w) eqn:W; [|discriminate].
    intros H. injection H as <-. right. exists t, w. auto.
  - destruct (existsb is_waiting ws) eqn:E; [discriminate|]. intros H. injection H as <-. auto.
Qed.

(** Exchanging a worker for one that counts the same. *)
Lemma inv_upd max p ws m t w w' : Inv max (mkS p ws m) -> nth_error ws t = Some w -> worker_ok w' ->
  member w' = member w -> idle_member w' = idle_member w -> Inv max (mkS p (upd ws t w') m).
Proof.
  intros I H OK M D. destruct I as [A B C E F G K L Q]. cbn [s_pool s_workers s_main] in *.
  pose proof (count_upd member w' ws t w H) as CM. pose proof (count_upd idle_member w' ws t w H) as CD.
  rewrite M in CM. rewrite D in CD.
  constructor; cbn [s_pool s_workers s_main] in *; auto.
  - rewrite B. unfold open. cbn [s_main]. lia.
  - rewrite C. unfold open. cbn [s_main]. lia.
  - rewrite E. now rewrite (ids_upd_same ws t w w') by auto.
  - now apply Forall_upd.
  - destruct m; auto; lia.
Qed.

Lemma waiting_inv w : is_waiting w = true -> w_place w = Waiting.
Proof. unfold is_waiting. destruct (w_place w); auto; discriminate. Qed.

Lemma inv_wake max p ws m t w to : Inv max (mkS p ws m) -> nth_error ws t = Some w -> w_place w = Waiting ->
  Inv max (mkS p (upd ws t (mkW (Locking to) (w_idle w) (w_data w))) m).
Proof.
  intros I H W. pose proof (nth_ok _ _ _ (i_ok _ _ I) H) as OK. unfold worker_ok in OK. rewrite W in OK. destruct OK as [O1 O2].
  apply (inv_upd max p ws m t w); auto.
  - unfold worker_ok. cbn [w_place w_data w_idle]. auto.
  - unfold member. cbn [w_place]. now rewrite W.
  - unfold idle_member. cbn [w_place w_idle]. now rewrite W.
Qed.

Lemma inv_signal max p ws m woken ws' : Inv max (mkS p ws m) -> signal ws woken = Some ws' -> Inv max (mkS p ws' m).
Proof.
  intros I H. apply signal_cases in H. destruct H as [[-> _]|(t & w & H & W & ->)]; [exact I|].
  apply inv_wake; auto using waiting_inv.
Qed.

Definition closed_not (m : phase) : m <> Closed -> (match m with Closed => 0 | _ => 1 end) = 1.
Proof. destruct m; congruence. Qed.

(** A caller of the pool shows that it is open. *)
Lemma caller_open max st who : Inv max st -> may_call st who = true ->
  s_main st = InHandler \/ s_main st = Polling.
Proof.
  intros I H. unfold may_call in H. destruct who as [t|].
  - unfold get in H. destruct (nth_error (s_workers st) t) as [w|] eqn:E; [|discriminate].
    destruct (w_place w) eqn:P; try discriminate.
    pose proof (count_ge member _ _ _ E) as C. unfold member in C at 1. rewrite P in C. specialize (C eq_refl).
    pose proof (i_phase _ _ I) as F. destruct (s_main st); auto; lia.
  - destruct (s_main st); auto; discriminate.
Qed.

Lemma inv_queue max p ws m d : Inv max (mkS p ws m) ->
  Inv max (mkS (mkP (p_queue p ++ [d]) (p_nres p + 1) (p_chain p) (p_max p) (p_idle p) (p_counter p) (p_quit p)) ws m).
Proof.
  intros I. destruct I as [A B C E F G K L Q]. cbn [s_pool s_workers s_main] in *.
  constructor; cbn [s_pool s_workers s_main p_max p_counter p_idle p_chain p_nres p_queue p_quit] in *; auto.
  intros N. rewrite F by exact N. rewrite app_length. cbn [length]. lia.
Qed.

Lemma inv_join max p ws m w : Inv max (mkS p ws m) -> m <> Closed -> m <> Exiting -> p_idle p <= 1 -> p_counter p < inc max ->
  worker_ok w -> member w = true -> idle_member w = true ->
  Inv max (mkS (member_join p (S (length ws))) (ws ++ [w]) m).
Proof.
  intros I NC NE H1 H2 OK M D. destruct I as [A B C E F G K L Q]. unfold open in *. cbn [s_pool s_workers s_main] in *.
  pose proof (inc_lt max) as IL.
  constructor; unfold open; cbn [s_pool s_workers s_main member_join p_max p_counter p_idle p_chain p_nres p_queue p_quit] in *; auto.
  - rewrite inc_small by lia. rewrite count_app, count_cons, M. cbn [b2n]. change (count member []) with 0. lia.
  - rewrite inc_small by lia. rewrite count_app, count_cons, D. cbn [b2n]. change (count idle_member []) with 0. lia.
  - rewrite E, ids_app, M, map_app, app_assoc. reflexivity.
  - rewrite inc_small by lia. lia.
  - apply Forall_app. auto.
  - destruct m; auto; congruence.
Qed.

Lemma inv_add max st d f woken st' out : Inv max st -> (s_main st = InHandler \/ s_main st = Polling) ->
  resource_add st d f woken = Done st' out -> Inv max st'.
Proof.
  intros I Hm H. unfold resource_add in H. destruct st as [p ws m]. cbn [s_pool s_workers s_main] in *.
  assert (NC : m <> Closed) by (destruct Hm; congruence). assert (NE : m <> Exiting) by (destruct Hm; congruence).
  destruct f; [| now injection H as <- _| |];
  (cbn [p_idle p_counter p_max] in H;
   pose proof (inv_queue max p ws m d I) as IQ; set (p' := mkP (p_queue p ++ [d]) _ _ _ _ _ _) in *;
   pose proof (i_max _ _ I) as IM; cbn [s_pool] in IM;
   destruct ((p_idle p <=? 1) && (p_counter p <? inc (p_max p))) eqn:C;
   [apply andb_prop in C; destruct C as [C1 C2]; apply N.leb_le in C1; apply N.ltb_lt in C2; rewrite IM in C2|]).
  - destruct (signal _ woken) as [ws'|] eqn:S; [|discriminate]. injection H as <- _.
    eapply inv_signal; [|exact S]. apply inv_join; auto. unfold worker_ok. cbn. split; [reflexivity|discriminate].
  - destruct (signal _ woken) as [ws'|] eqn:S; [|discriminate]. injection H as <- _. eapply inv_signal; eauto.
  - injection H as <- _. exact IQ.
  - destruct (signal _ woken) as [ws'|] eqn:S; [|discriminate]. injection H as <- _. eapply inv_signal; eauto.
  - injection H as <- _. apply inv_join; auto. unfold worker_ok. cbn. auto.
  - destruct (signal _ woken) as [ws'|] eqn:S; [|discriminate]. injection H as <- _. eapply inv_signal; eauto.
Qed.

(** A member that leaves. *)
Lemma inv_exit max p ws m t w data idle : Inv max (mkS p ws m) -> nth_error ws t = Some w -> member w = true ->
  idle_member w = idle -> m <> Closed ->
  Inv max (mkS (member_exit p (S t) idle) (upd ws t (mkW Leaving idle data)) m).
Proof.
  intros I H M D NC. destruct I as [A B C E F G K L Q]. unfold open in *. cbn [s_pool s_workers s_main] in *.
  pose proof (count_upd member (mkW Leaving idle data) ws t w H) as CM.
  pose proof (count_upd idle_member (mkW Leaving idle data) ws t w H) as CD.
  rewrite M in CM. rewrite D in CD. change (member (mkW Leaving idle data)) with false in CM.
  change (idle_member (mkW Leaving idle data)) with false in CD. cbn [b2n] in CM, CD.
  pose proof (inc_lt max) as IL. pose proof (closed_not m NC) as O. pose proof (count_le idle_member member ws idle_is_member) as LE.
  constructor; unfold open; cbn [s_pool s_workers s_main member_exit p_max p_counter p_idle p_chain p_nres p_queue p_quit] in *; auto.
  - rewrite dec_small by lia. lia.
  - destruct idle; cbn [b2n] in CD; [rewrite dec_small by lia|]; lia.
  - rewrite E. rewrite (ids_upd_leave ws t w) by auto. rewrite filter_app, filter_S. f_equal. destruct m; reflexivity.
  - rewrite dec_small by lia. lia.
  - apply Forall_upd; [exact K|exact I].
  - destruct m; auto; lia.
Qed.

(** A non-idle member is made idle. *)
Lemma inv_idle max p ws m t w : Inv max (mkS p ws m) -> nth_error ws t = Some w -> w_place w = Locking false -> w_idle w = false ->
  m <> Closed ->
  Inv max (mkS (mkP (p_queue p) (p_nres p) (p_chain p) (p_max p) (inc (p_idle p)) (p_counter p) (p_quit p))
               (upd ws t (mkW (Locking false) true 0)) m).
Proof.
  intros I H P D NC. destruct I as [A B C E F G K L Q]. unfold open in *. cbn [s_pool s_workers s_main] in *.
  set (w' := mkW (Locking false) true 0).
  assert (M : member w = true) by (unfold member; now rewrite P).
  assert (ID : idle_member w = false) by (unfold idle_member; now rewrite P).
  pose proof (count_upd member w' ws t w H) as CM. pose proof (count_upd idle_member w' ws t w H) as CD.
  rewrite M in CM. rewrite ID in CD. change (member w') with true in CM. change (idle_member w') with true in CD. cbn [b2n] in CM, CD.
  pose proof (count_lt idle_member member ws t w idle_is_member H ID M) as LT.
  pose proof (inc_lt max) as IL. pose proof (closed_not m NC) as O.
  constructor; unfold open; cbn [s_pool s_workers s_main p_max p_counter p_idle p_chain p_nres p_queue p_quit] in *; auto.
  - lia.
  - rewrite inc_small by lia. lia.
  - rewrite E. rewrite (ids_upd_same ws t w w'); auto.
  - apply Forall_upd; [exact K|]. split; [reflexivity|discriminate].
  - destruct m; auto; lia.
Qed.

Lemma remove_length q : forall n d q' n' d', remove q n d = (q', n', d') -> n = N.of_nat (length q) -> n' = N.of_nat (length q').
Proof.
  induction q as [|x q IH]; intros n d q' n' d' H E; cbn [remove] in H.
  - injection H as <- <- _. exact E.
  - cbn [length] in E. destruct (x =? 0).
    + eapply IH; [exact H|]. lia.
    + injection H as <- <- _. lia.
Qed.

Lemma remove_queue max p ws m q n d : Inv max (mkS p ws m) -> m <> Closed -> remove (p_queue p) (p_nres p) 0 = (q, n, d) ->
  Inv max (mkS (mkP q n (p_chain p) (p_max p) (p_idle p) (p_counter p) (p_quit p)) ws m).
Proof.
  intros I NC R. destruct I as [A B C E F G K L Q]. cbn [s_pool s_workers s_main] in *.
  constructor; cbn [s_pool s_workers s_main p_max p_counter p_idle p_chain p_nres p_queue p_quit] in *; auto.
  intros N. eapply remove_length; eauto.
Qed.

Lemma inv_take max p ws m t w d : Inv max (mkS p ws m) -> nth_error ws t = Some w -> idle_member w = true -> m <> Closed -> d <> 0 ->
  Inv max (mkS (mkP (p_queue p) (p_nres p) (p_chain p) (p_max p) (dec (p_idle p)) (p_counter p) (p_quit p))
               (upd ws t (mkW Processing false d)) m).
Proof.
  intros I H D NC Hd. destruct I as [A B C E F G K L Q]. unfold open in *. cbn [s_pool s_workers s_main] in *.
  set (w' := mkW Processing false d). pose proof (idle_is_member w D) as M.
  pose proof (count_upd member w' ws t w H) as CM. pose proof (count_upd idle_member w' ws t w H) as CD.
  rewrite M in CM. rewrite D in CD. change (member w') with true in CM. change (idle_member w') with false in CD. cbn [b2n] in CM, CD.
  pose proof (inc_lt max) as IL. pose proof (closed_not m NC) as O. pose proof (count_le idle_member member ws idle_is_member) as LE.
  constructor; unfold open; cbn [s_pool s_workers s_main p_max p_counter p_idle p_chain p_nres p_queue p_quit] in *; auto.
  - lia.
  - rewrite dec_small by lia. lia.
  - rewrite E. rewrite (ids_upd_same ws t w w'); auto.
  - apply Forall_upd; [exact K|]. split; [exact Hd|reflexivity].
  - destruct m; auto; lia.
Qed.

Lemma upd_twice {A} (l : list A) i a b : upd (upd l i a) i b = upd l i b.
Proof. revert i. induction l as [|x l IH]; intros [|i]; cbn [upd]; auto. now rewrite IH. Qed.
Lemma upd_same {A} (l : list A) i a : nth_error l i = Some a -> upd l i a = l.
Proof. revert i. induction l as [|x l IH]; intros [|i] H; cbn [upd nth_error] in *; try discriminate; [now injection H as ->|now rewrite IH]. Qed.

(** The first lines of the critical section. *)
Definition wake_idle (p : pool) (w : worker) : pool :=
  if w_idle w then p else mkP (p_queue p) (p_nres p) (p_chain p) (p_max p) (inc (p_idle p)) (p_counter p) (p_quit p).

Lemma inv_launch max p ws m t w to st' out : Inv max (mkS p ws m) -> nth_error ws t = Some w -> w_place w = Locking to -> m <> Closed ->
  launch (mkS p ws m) t w to = Done st' out -> Inv max st'.
Proof.
  intros I H P NC L. unfold launch in L. cbn [s_pool s_workers s_main] in L. fold (wake_idle p w) in L.
  set (w1 := mkW (Locking to) true 0).
  assert (I1 : Inv max (mkS (wake_idle p w) (upd ws t w1) m)).
  { pose proof (nth_ok _ _ _ (i_ok _ _ I) H) as OK. unfold worker_ok in OK. rewrite P in OK. destruct OK as [O1 O2].
    unfold wake_idle, w1. destruct (w_idle w) eqn:D.
    - rewrite upd_same; [exact I|]. rewrite H. destruct w as [pl id da]. cbn [w_place w_idle w_data] in *. now subst.
    - destruct to; [now specialize (O2 eq_refl)|]. apply (inv_idle max p ws m t w); auto. }
  assert (H1 : nth_error (upd ws t w1) t = Some w1) by (apply nth_error_upd_eq; apply nth_error_Some; congruence).
  set (p1 := wake_idle p w) in *. clearbody p1. unfold set in L.
  rewrite <- (upd_twice ws t w1 (mkW Leaving true (w_data w))), <- (upd_twice ws t w1 (mkW Leaving true 0)),
    <- (upd_twice ws t w1 (mkW Waiting true 0)) in L.
  destruct (p_quit p1) eqn:QQ.
  - injection L as <- _. apply (inv_exit max p1 _ m t w1); auto.
  - destruct (remove (p_queue p1) (p_nres p1) 0) as [[q n] d] eqn:R. pose proof (remove_queue max p1 _ m q n d I1 NC R) as IR. rewrite QQ in IR.
    rewrite <- (upd_twice ws t w1 (mkW Processing false d)) in L.
    destruct (N.eqb_spec d 0) as [Z|Z].
    + destruct to.
      * injection L as <- _. apply (inv_exit max (mkP q n _ _ _ _ _) _ m t w1); auto.
      * injection L as <- _. apply (inv_upd max _ _ m t w1); auto. split; reflexivity.
    + injection L as <- _. apply (inv_take max _ _ m t w1 d IR); auto.
Qed.

Lemma worker_open max st t w : Inv max st -> nth_error (s_workers st) t = Some w -> member w = true -> s_main st <> Closed.
Proof.
  intros I H M E. pose proof (i_phase _ _ I) as F. rewrite E in F. pose proof (count_ge member _ _ _ H M). lia.
Qed.

Lemma inv_worker max st t e st' out : Inv max st -> worker_step st t e = Done st' out -> Inv max st'.
Proof.
  intros I H. unfold worker_step, get in H. destruct (nth_error (s_workers st) t) as [w|] eqn:E; [|discriminate].
  pose proof (nth_ok _ _ _ (i_ok _ _ I) E) as OK. destruct st as [p ws m]. cbn [s_pool s_workers s_main] in *.
  unfold is_closed, set in H. cbn [s_main] in H.
  destruct e; try discriminate H; destruct (w_place w) eqn:P; try discriminate H; unfold worker_ok in OK; rewrite P in OK.
  - assert (M : member w = true) by (unfold member; now rewrite P). pose proof (worker_open max _ t w I E M) as NC. cbn [s_main] in NC.
    eapply inv_launch; eauto. destruct m; try exact H. congruence.
  - destruct m; try discriminate H; injection H as <- _; now apply inv_wake.
  - destruct m; try discriminate H; injection H as <- _; now apply inv_wake.
  - injection H as <- _. destruct OK as [O1 O2]. apply (inv_upd max p ws m t w); auto.
    + split; [reflexivity|discriminate].
    + unfold member. cbn [w_place]. now rewrite P.
    + unfold idle_member. cbn [w_place w_idle]. now rewrite P, O2.
  - assert (M : member w = true) by (unfold member; now rewrite P). pose proof (worker_open max _ t w I E M) as NC. cbn [s_main] in NC.
    destruct OK as [O1 O2].
    assert (ID : idle_member w = w_idle w) by (unfold idle_member; now rewrite P, O2).
    destruct m; try congruence; injection H as <- _; apply (inv_exit max p ws _ t w); auto; discriminate.
  - assert (I' : Inv max (mkS p (upd ws t (mkW Gone false 0)) m)).
    { apply (inv_upd max p ws m t w); auto.
      - reflexivity.
      - unfold member. cbn [w_place]. now rewrite P.
      - unfold idle_member. cbn [w_place]. now rewrite P. }
    destruct (w_data w =? 0); [now injection H as <- _|]. destruct m; try discriminate H; now injection H as <- _.
Qed.

Definition rouse (w : worker) : worker := if is_waiting w then mkW (Locking false) (w_idle w) (w_data w) else w.

Lemma rouse_same w : worker_ok w -> member (rouse w) = member w /\ idle_member (rouse w) = idle_member w /\ worker_ok (rouse w).
Proof.
  intros OK. unfold rouse. destruct (is_waiting w) eqn:W; [|auto]. apply waiting_inv in W. unfold worker_ok in OK. rewrite W in OK. destruct OK as [O1 O2].
  unfold member, idle_member, worker_ok. cbn [w_place w_idle w_data]. rewrite W, O2. auto.
Qed.

Lemma inv_quit max st : Inv max st -> Inv max (thread_quit st).
Proof.
  intros I. destruct I as [A B C E F G K L Q].
  constructor; cbn [thread_quit s_pool s_workers s_main p_max p_counter p_idle p_chain p_nres p_queue p_quit] in *; auto.
Qed.

Lemma inv_poll max st : Inv max st -> s_main st = Polling -> Inv max (poll st).
Proof.
  intros I Hm. unfold poll. destruct I as [A B C E F G K L Q]. unfold open in *. rewrite Hm in *.
  destruct (N.leb_spec (p_counter (s_pool st)) 1) as [Hc|Hc].
  - constructor; unfold open; cbn [s_pool s_workers s_main] in *; auto; try congruence. 1: intros _; apply F; discriminate. 1: lia. intros _. apply Q. discriminate.
  - fold rouse. assert (RS : forall w, In w (s_workers st) -> member (rouse w) = member w /\ idle_member (rouse w) = idle_member w /\ worker_ok (rouse w)).
    { intros w Hw. apply rouse_same. rewrite Forall_forall in K. auto. }
    constructor; unfold open; cbn [s_pool s_workers s_main] in *; auto.
    + rewrite count_map; [exact B|]. intros w Hw. apply RS. exact Hw.
    + rewrite count_map; [exact C|]. intros w Hw. apply RS. exact Hw.
    + rewrite ids_map; [exact E|]. intros w Hw. apply RS. exact Hw.
    + apply Forall_forall. intros w Hw. apply in_map_iff in Hw. destruct Hw as (x & <- & Hx). apply RS. exact Hx.
Qed.

Lemma close_ok max st : Inv max st -> s_main st = Exiting ->
  close st = Done (mkS (mkP [] (p_nres (s_pool st)) [] (p_max (s_pool st)) 0 0 (p_quit (s_pool st))) (s_workers st) Closed)
                  (map Dropped (p_queue (s_pool st))).
Proof.
  intros I Hm. destruct I as [A B C E F G K L Q]. unfold open in *. rewrite Hm in *. unfold close.
  cbn [member_exit p_chain p_counter p_idle p_queue p_nres p_max p_quit]. rewrite E, (ids_none _ L).
  cbn [app map filter Nat.eqb negb]. pose proof (count_le idle_member member (s_workers st) idle_is_member) as LE.
  rewrite B, C. replace (count idle_member (s_workers st)) with 0 by lia. rewrite L. reflexivity.
Qed.

Lemma inv_step max st e st' out : Inv max st -> step st e = Done st' out -> Inv max st'.
Proof.
  intros I H. destruct e; cbn [step] in H; try (now apply (inv_worker max st) in H).
  - destruct (may_call st who) eqn:M; [|discriminate]. eapply inv_add; eauto. eapply caller_open; eauto.
  - destruct (may_call st who) eqn:M; [|discriminate]. injection H as <- _. now apply inv_quit.
  - destruct (may_call st who) eqn:M; [|discriminate]. now injection H as <- _.
  - destruct (s_main st) eqn:M; try discriminate. injection H as <- _.
    destruct I as [A B C E F G K L Q]. unfold open in *. rewrite M in *.
    constructor; unfold open; cbn [thread_quit s_pool s_workers s_main p_max p_counter p_idle p_chain p_nres p_queue p_quit] in *; auto.
    intros _. apply F. discriminate.
  - destruct (s_main st) eqn:M; try discriminate. injection H as <- _. now apply inv_poll.
  - destruct (s_main st) eqn:M; try discriminate. rewrite (close_ok max st I M) in H. injection H as <- _.
    destruct I as [A B C E F G K L Q]. unfold open in *. rewrite M in *.
    pose proof (count_le idle_member member (s_workers st) idle_is_member) as LE.
    constructor; unfold open; cbn [s_pool s_workers s_main p_max p_counter p_idle p_chain p_nres p_queue p_quit] in *.
    + exact A.
    + now rewrite L.
    + lia.
    + now rewrite (ids_none _ L).
    + congruence.
    + apply N.le_0_l.
    + exact K.
    + exact L.
    + intros _. apply Q. discriminate.
Qed.

Lemma inv_run max : forall es st st' out, Inv max st -> run st es = Done st' out -> Inv max st'.
Proof.
  induction es as [|e es IH]; intros st st' out I H; cbn [run] in H.
  - now injection H as <- _.
  - destruct (step st e) as [s1 o1| |] eqn:S; try discriminate. destruct (run s1 es) as [s2 o2| |] eqn:R; try discriminate.
    injection H as <- _. eapply IH; [|exact R]. eapply inv_step; eauto.
Qed.

(** ** Order and fate of the resources *)

Lemma some_app l l' : flat_map some (l ++ l') = flat_map some l ++ flat_map some l'.
Proof. apply flat_map_app. Qed.

Lemma remove_some q : forall n d q' n' d', remove q n d = (q', n', d') -> d = 0 -> flat_map some q = some d' ++ flat_map some q'.
Proof.
  induction q as [|x q IH]; intros n d q' n' d' H Z; cbn [remove] in H.
  - injection H as <- _ <-. now rewrite Z.
  - destruct (N.eqb_spec x 0) as [E|E].
    + subst x. cbn [flat_map]. change (some 0) with (@nil N). cbn [app]. eapply IH; eauto.
    + injection H as <- _ <-. reflexivity.
Qed.

Lemma added_one who d f woken : added [Add who d f woken] = match f with NoResource => [] | _ => some d end.
Proof. unfold added. cbn [flat_map]. now rewrite app_nil_r. Qed.

Lemma fifo_add st d f woken st' out : resource_add st d f woken = Done st' out ->
  queued st ++ match f with NoResource => [] | _ => some d end = queued st' /\ took out = [] /\ dropped out = [] /\ freed out = [] /\ finished out = [].
Proof.
  intros H. unfold resource_add in H.
  assert (Q : queued st ++ some d = flat_map some (p_queue (s_pool st) ++ [d])).
  { rewrite some_app. unfold queued. cbn [flat_map]. now rewrite app_nil_r. }
  destruct f; [| injection H as <- <-; rewrite app_nil_r; auto| |]; cbn [p_idle p_counter p_max] in H;
  (destruct ((_ <=? 1) && _);
   try (destruct (signal _ woken) as [ws'|]; [|discriminate]);
   injection H as <- <-; unfold queued in *; cbn [s_pool member_join p_queue]; auto).
Qed.

Lemma wake_idle_queue p w : p_queue (wake_idle p w) = p_queue p.
Proof. unfold wake_idle. now destruct (w_idle w). Qed.

Lemma fifo_launch st t w to st' out : launch st t w to = Done st' out ->
  queued st = took out ++ queued st' /\ dropped out = [] /\ freed out = [] /\ finished out = [].
Proof.
  intros L. unfold launch in L. fold (wake_idle (s_pool st) w) in L.
  pose proof (wake_idle_queue (s_pool st) w) as WQ. set (p1 := wake_idle (s_pool st) w) in *. clearbody p1.
  unfold queued. rewrite <- WQ. destruct (p_quit p1).
  - injection L as <- <-. auto.
  - destruct (remove (p_queue p1) (p_nres p1) 0) as [[q n] d] eqn:R. apply remove_some in R; [|reflexivity]. rewrite R.
    destruct (N.eqb_spec d 0) as [Z|Z].
    + subst d. destruct to; injection L as <- <-; auto.
    + injection L as <- <-. cbn [s_pool p_queue took dropped freed finished flat_map]. unfold some at 1.
      destruct (N.eqb_spec d 0); [congruence|]. auto.
Qed.

Lemma fifo_worker st t e st' out : worker_step st t e = Done st' out ->
  queued st = took out ++ queued st' /\ dropped out = [].
Proof.
  intros H. unfold worker_step in H. destruct (get st t) as [w|]; [|discriminate].
  destruct e; try discriminate H; destruct (w_place w) eqn:P; try discriminate H.
  - destruct (is_closed st); [discriminate|]. apply fifo_launch in H. tauto.
  - destruct (is_closed st); [discriminate|]. injection H as <- <-. auto.
  - destruct (is_closed st); [discriminate|]. injection H as <- <-. auto.
  - injection H as <- <-. auto.
  - destruct (is_closed st); [discriminate|]. injection H as <- <-. auto.
  - destruct (w_data w =? 0); [now injection H as <- <-|]. destruct (is_closed st); [discriminate|]. injection H as <- <-. auto.
Qed.

Lemma dropped_map q : dropped (map Dropped q) = flat_map some q.
Proof. unfold dropped. induction q as [|x q IH]; [reflexivity|]. cbn [map flat_map]. now rewrite IH. Qed.
Lemma took_map q : took (map Dropped q) = [].
Proof. unfold took. induction q as [|x q IH]; [reflexivity|]. cbn [map flat_map]. exact IH. Qed.
Lemma freed_map q : freed (map Dropped q) = [].
Proof. unfold freed. induction q as [|x q IH]; [reflexivity|]. cbn [map flat_map]. exact IH. Qed.
Lemma finished_map q : finished (map Dropped q) = [].
Proof. unfold finished. induction q as [|x q IH]; [reflexivity|]. cbn [map flat_map]. exact IH. Qed.

Lemma fifo_step max st e st' out : Inv max st -> step st e = Done st' out ->
  queued st ++ added [e] = took out ++ dropped out ++ queued st' /\
  (dropped out = [] \/ (s_main st' = Closed /\ queued st' = [])).
Proof.
  intros I H.
  assert (WS : forall t, worker_step st t e = Done st' out -> added [e] = [] ->
    queued st ++ added [e] = took out ++ dropped out ++ queued st' /\
    (dropped out = [] \/ (s_main st' = Closed /\ queued st' = []))).
  { intros t W A. apply fifo_worker in W. destruct W as [W1 W2]. rewrite A, app_nil_r, W2. auto. }
  destruct e; cbn [step] in H; try (eapply WS; [exact H|reflexivity]).
  - destruct (may_call st who); [|discriminate]. apply fifo_add in H. destruct H as (H1 & H2 & H3 & _).
    rewrite added_one, H1, H2, H3. auto.
  - destruct (may_call st who); [|discriminate]. injection H as <- <-. cbn. rewrite app_nil_r. auto.
  - destruct (may_call st who); [|discriminate]. injection H as <- <-. cbn. rewrite app_nil_r. auto.
  - destruct (s_main st); try discriminate. injection H as <- <-. cbn. rewrite app_nil_r. auto.
  - destruct (s_main st); try discriminate. injection H as <- <-. cbn [added flat_map took dropped app]. rewrite app_nil_r.
    split; [|auto]. unfold poll, queued. destruct (_ <=? 1); reflexivity.
  - destruct (s_main st) eqn:M; try discriminate. rewrite (close_ok max st I M) in H. injection H as <- <-.
    rewrite took_map, dropped_map. cbn [added flat_map app]. unfold queued. cbn [s_pool p_queue s_main flat_map]. rewrite !app_nil_r. auto.
Qed.

Lemma closed_added max : forall es st st' out, Inv max st -> s_main st = Closed -> run st es = Done st' out -> added es = [] /\ s_main st' = Closed.
Proof.
  induction es as [|e es IH]; intros st st' out I C H; cbn [run] in H.
  - injection H as <- _. auto.
  - destruct (step st e) as [s1 o1| |] eqn:S; try discriminate. destruct (run s1 es) as [s2 o2| |] eqn:R; try discriminate.
    injection H as <- _. pose proof (inv_step _ _ _ _ _ I S) as I1.
    assert (K : added [e] = [] /\ s_main s1 = Closed).
    { destruct e; cbn [step] in S;
        try (destruct (may_call st who) eqn:M; [|discriminate]; destruct (caller_open _ _ _ I M); congruence);
        try (rewrite C in S; discriminate).
      all: split; [reflexivity|]; unfold worker_step in S; destruct (get st _) as [w|]; [|discriminate];
        destruct (w_place w); try discriminate; unfold is_closed in S; rewrite ?C in S; try discriminate;
        try (destruct (w_data w =? 0)); try discriminate; injection S as <- _; first [exact C|reflexivity]. }
    destruct K as [K1 K2]. destruct (IH s1 s2 o2 I1 K2 R) as [A B]. split; [|exact B].
    change (e :: es) with ([e] ++ es). unfold added in *. rewrite flat_map_app, K1, A. reflexivity.
Qed.

Lemma outputs_app f (o1 o2 : list output) : flat_map f (o1 ++ o2) = flat_map f o1 ++ flat_map (B:=N) f o2.
Proof. apply flat_map_app. Qed.

Lemma fifo_run max : forall es st st' out, Inv max st -> run st es = Done st' out ->
  queued st ++ added es = took out ++ dropped out ++ queued st'.
Proof.
  induction es as [|e es IH]; intros st st' out I H; cbn [run] in H.
  - injection H as <- <-. cbn. now rewrite app_nil_r.
  - destruct (step st e) as [s1 o1| |] eqn:S; try discriminate. destruct (run s1 es) as [s2 o2| |] eqn:R; try discriminate.
    injection H as <- <-. pose proof (inv_step _ _ _ _ _ I S) as I1.
    destruct (fifo_step _ _ _ _ _ I S) as [F D]. specialize (IH s1 s2 o2 I1 R).
    assert (AE : added (e :: es) = added [e] ++ added es) by (change (e :: es) with ([e] ++ es); apply flat_map_app).
    assert (TE : took (o1 ++ o2) = took o1 ++ took o2) by apply flat_map_app.
    assert (DE : dropped (o1 ++ o2) = dropped o1 ++ dropped o2) by apply flat_map_app.
    rewrite AE, TE, DE, app_assoc, F. destruct D as [D|[D1 D2]].
    + rewrite D. cbn [app]. rewrite <- !app_assoc. now rewrite IH.
    + destruct (closed_added _ _ _ _ _ I1 D1 R) as [A _]. rewrite A, D2 in *. cbn [app] in IH. symmetry in IH.
      apply app_eq_nil in IH. destruct IH as [IH1 IH2]. apply app_eq_nil in IH2. destruct IH2 as [IH2 IH3].
      rewrite IH1, IH2, IH3. cbn [app]. rewrite !app_nil_r. reflexivity.
Qed.

Definition held (w : worker) : list N := match w_place w with Processing | Leaving => some (w_data w) | _ => [] end.
Definition occ (l : list N) (x : N) : nat := count_occ N.eq_dec l x.

Lemma occ_app l l' x : occ (l ++ l') x = (occ l x + occ l' x)%nat.
Proof. apply count_occ_app. Qed.

Lemma held_upd w' x : forall ws t w, nth_error ws t = Some w ->
  (occ (flat_map held (upd ws t w')) x + occ (held w) x = occ (flat_map held ws) x + occ (held w') x)%nat.
Proof.
  induction ws as [|y ws IH]; intros [|t] w H; cbn [nth_error] in H; try discriminate.
  - injection H as ->. cbn [upd flat_map]. rewrite !occ_app. lia.
  - cbn [upd flat_map]. rewrite !occ_app. specialize (IH t w H). lia.
Qed.

Lemma held_app ws w x : occ (flat_map held (ws ++ [w])) x = (occ (flat_map held ws) x + occ (held w) x)%nat.
Proof. rewrite flat_map_app, occ_app. cbn [flat_map]. now rewrite app_nil_r. Qed.

Lemma held_signal ws woken ws' x : signal ws woken = Some ws' -> occ (flat_map held ws') x = occ (flat_map held ws) x.
Proof.
  intros H. apply signal_cases in H. destruct H as [[-> _]|(t & w & H & W & ->)]; [reflexivity|].
  pose proof (held_upd (mkW (Locking false) (w_idle w) (w_data w)) x ws t w H) as U. apply waiting_inv in W.
  unfold held in U at 2 4. rewrite W in U. cbn [w_place] in U. lia.
Qed.

Ltac fate U := unfold held at 3 in U; cbn [w_place w_data] in U; cbn [took finished freed flat_map app s_workers];
  unfold occ in *; cbn [some N.eqb count_occ] in *; lia.

Ltac quiet := cbn [took finished freed flat_map app s_workers thread_quit resource_info]; unfold occ; cbn [count_occ]; lia.

Lemma fate_step max st e st' out x : Inv max st -> step st e = Done st' out ->
  (occ (in_hand st) x + occ (took out) x = occ (finished out) x + occ (freed out) x + occ (in_hand st') x)%nat.
Proof.
  intros I H. unfold in_hand. fold held.
  assert (WS : forall t, worker_step st t e = Done st' out ->
    (occ (flat_map held (s_workers st)) x + occ (took out) x = occ (finished out) x + occ (freed out) x + occ (flat_map held (s_workers st')) x)%nat).
  { clear H. intros t H. unfold worker_step, get in H. destruct (nth_error (s_workers st) t) as [w|] eqn:E; [|discriminate].
    pose proof (nth_ok _ _ _ (i_ok _ _ I) E) as OK. unfold worker_ok in OK. unfold set in H.
    pose proof (fun w' => held_upd w' x _ t w E) as U. unfold held at 2 in U.
    destruct e; try discriminate H; destruct (w_place w) eqn:P; try discriminate H.
    - destruct (is_closed st); [discriminate|]. unfold launch, set in H. destruct OK as [O1 O2].
      destruct (p_quit _).
      + injection H as <- <-. specialize (U (mkW Leaving true (w_data w))). rewrite O1 in *. fate U.
      + destruct (remove _ _ 0) as [[q n] d]. destruct (N.eqb_spec d 0) as [Z|Z].
        * destruct timeout; injection H as <- <-; [specialize (U (mkW Leaving true 0))|specialize (U (mkW Waiting true 0))]; fate U.
        * injection H as <- <-. specialize (U (mkW Processing false d)). unfold held at 3 in U. cbn [w_place w_data] in U.
          unfold some in U. destruct (N.eqb_spec d 0); [congruence|]. cbn [took finished freed flat_map app s_workers]. cbn [occ count_occ] in *. unfold occ in *. cbn [count_occ] in *. lia.
    - destruct (is_closed st); [discriminate|]. injection H as <- <-. specialize (U (mkW (Locking true) (w_idle w) (w_data w))). fate U.
    - destruct (is_closed st); [discriminate|]. injection H as <- <-. specialize (U (mkW (Locking false) (w_idle w) (w_data w))). fate U.
    - injection H as <- <-. specialize (U (mkW (Locking false) (w_idle w) 0)). destruct OK as [O1 _]. unfold some in U.
      destruct (N.eqb_spec (w_data w) 0); [congruence|]. cbn [took finished freed flat_map app s_workers]. unfold held at 3 in U. cbn [w_place] in U. unfold occ in *. cbn [count_occ] in *. lia.
    - destruct (is_closed st); [discriminate|]. injection H as <- <-. specialize (U (mkW Leaving (w_idle w) (w_data w))). unfold held at 3 in U. cbn [w_place w_data] in U. cbn [took finished freed flat_map app s_workers]. cbn [occ count_occ]. unfold occ in *. cbn [count_occ] in *. lia.
    - specialize (U (mkW Gone false 0)). unfold held at 3 in U. cbn [w_place] in U. unfold some in U. destruct (N.eqb_spec (w_data w) 0) as [Z|Z].
      + injection H as <- <-. cbn [took finished freed flat_map app s_workers]. unfold occ in *. cbn [count_occ] in *. lia.
      + destruct (is_closed st); [discriminate|]. injection H as <- <-. cbn [took finished freed flat_map app s_workers]. unfold occ in *. cbn [count_occ] in *. lia. }
  destruct e; cbn [step] in H; try (eapply WS; exact H).
  - destruct (may_call st who); [|discriminate]. pose proof (fifo_add _ _ _ _ _ _ H) as (_ & -> & _ & -> & ->). cbn [occ count_occ].
    enough (occ (flat_map held (s_workers st)) x = occ (flat_map held (s_workers st')) x) by (unfold occ in *; cbn [count_occ] in *; lia).
    unfold resource_add in H.
    destruct f; [| now injection H as <- _| |]; cbn [p_idle p_counter p_max] in H; destruct ((_ <=? 1) && _);
      try (destruct (signal _ woken) as [ws'|] eqn:S; [|discriminate]; pose proof (held_signal _ _ _ x S) as HS);
      injection H as <- _; cbn [s_workers]; try rewrite HS; rewrite ?held_app; try reflexivity; unfold held at 3; cbn [w_place]; unfold occ; cbn [count_occ]; lia.
  - destruct (may_call st who); [|discriminate]. injection H as <- <-. quiet.
  - destruct (may_call st who); [|discriminate]. injection H as <- <-. quiet.
  - destruct (s_main st); try discriminate. injection H as <- <-. quiet.
  - destruct (s_main st); try discriminate. injection H as <- <-. unfold poll. destruct (_ <=? 1); cbn [s_workers]; [quiet|].
    change (took []) with (@nil N). change (finished []) with (@nil N). change (freed []) with (@nil N).
    enough (E : flat_map held (map (fun w => if is_waiting w then mkW (Locking false) (w_idle w) (w_data w) else w) (s_workers st)) = flat_map held (s_workers st))
      by (rewrite E; unfold occ; cbn [count_occ]; lia).
    clear. induction (s_workers st) as [|w ws IH]; [reflexivity|]. cbn [map flat_map]. rewrite IH. f_equal.
    destruct (is_waiting w) eqn:W; [|reflexivity]. apply waiting_inv in W. unfold held. now rewrite W.
  - destruct (s_main st) eqn:M; try discriminate. rewrite (close_ok max st I M) in H. injection H as <- <-.
    rewrite took_map, finished_map, freed_map. cbn [s_workers]. unfold occ. cbn [count_occ]. lia.
Qed.

Lemma fate_run max x : forall es st st' out, Inv max st -> run st es = Done st' out ->
  (occ (in_hand st) x + occ (took out) x = occ (finished out) x + occ (freed out) x + occ (in_hand st') x)%nat.
Proof.
  induction es as [|e es IH]; intros st st' out I H; cbn [run] in H.
  - injection H as <- <-. quiet.
  - destruct (step st e) as [s1 o1| |] eqn:S; try discriminate. destruct (run s1 es) as [s2 o2| |] eqn:R; try discriminate.
    injection H as <- <-. pose proof (inv_step _ _ _ _ _ I S) as I1. pose proof (fate_step _ _ _ _ _ x I S) as F1.
    specialize (IH s1 s2 o2 I1 R). unfold took, finished, freed in *. rewrite !outputs_app, !occ_app. lia.
Qed.

Lemma fates max es st out : run (init max) es = Done st out -> Permutation (took out) (finished out ++ freed out ++ in_hand st).
Proof.
  intros H. apply (Permutation_count_occ N.eq_dec). intros x. pose proof (fate_run max x es _ _ _ (init_inv max) H) as F.
  rewrite !count_occ_app. unfold occ in F. cbn [init in_hand s_workers flat_map count_occ] in F. lia.
Qed.

(** ** No fault *)

Definition tidy (w : worker) : Prop := w_place w = Leaving -> w_data w = 0.

Lemma signal_forall (P : worker -> Prop) ws woken ws' : (forall i d, P (mkW (Locking false) i d)) -> Forall P ws ->
  signal ws woken = Some ws' -> Forall P ws'.
Proof.
  intros HP F H. apply signal_cases in H. destruct H as [[-> _]|(t & w & _ & _ & ->)]; [exact F|]. now apply Forall_upd.
Qed.

Lemma tidy_step max st e st' out : Inv max st -> Forall tidy (s_workers st) -> no_die e -> step st e = Done st' out -> Forall tidy (s_workers st').
Proof.
  intros I T ND H.
  assert (L : forall pl i d, pl <> Leaving -> tidy (mkW pl i d)) by (intros pl i d N E; cbn in E; congruence).
  assert (WS : forall t, worker_step st t e = Done st' out -> Forall tidy (s_workers st')).
  { clear H. intros t H. unfold worker_step, get in H. destruct (nth_error (s_workers st) t) as [w|] eqn:E; [|discriminate].
    pose proof (nth_ok _ _ _ (i_ok _ _ I) E) as OK. unfold worker_ok in OK. unfold set in H.
    destruct e; try discriminate H; try contradiction; destruct (w_place w) eqn:P; try discriminate H.
    - destruct (is_closed st); [discriminate|]. unfold launch, set in H. destruct OK as [O1 O2].
      destruct (p_quit _).
      + injection H as <- <-. apply Forall_upd; [exact T|]. intros _. exact O1.
      + destruct (remove _ _ 0) as [[q n] d]. destruct (d =? 0); [destruct timeout|]; injection H as <- <-; (apply Forall_upd; [exact T|]);
          [intros _; reflexivity| |]; now apply L.
    - destruct (is_closed st); [discriminate|]. injection H as <- <-. apply Forall_upd; [exact T|]. now apply L.
    - destruct (is_closed st); [discriminate|]. injection H as <- <-. apply Forall_upd; [exact T|]. now apply L.
    - injection H as <- <-. apply Forall_upd; [exact T|]. now apply L.
    - destruct (w_data w =? 0); [|destruct (is_closed st); [discriminate|]]; injection H as <- <-; (apply Forall_upd; [exact T|]); now apply L. }
  destruct e; cbn [step] in H; try (eapply WS; exact H).
  - destruct (may_call st who); [|discriminate]. unfold resource_add in H.
    destruct f; [| now injection H as <- _| |]; cbn [p_idle p_counter p_max] in H; destruct ((_ <=? 1) && _);
      try (destruct (signal _ woken) as [ws'|] eqn:S; [|discriminate]);
      injection H as <- _; cbn [s_workers]; try exact T; try (eapply signal_forall; [| |exact S]; [intros; now apply L|]); try exact T;
      (apply Forall_app; split; [exact T|constructor; [now apply L|constructor]]).
  - destruct (may_call st who); [|discriminate]. now injection H as <- _.
  - destruct (may_call st who); [|discriminate]. now injection H as <- _.
  - destruct (s_main st); try discriminate. now injection H as <- _.
  - destruct (s_main st); try discriminate. injection H as <- _. unfold poll. destruct (_ <=? 1); cbn [s_workers]; [exact T|].
    apply Forall_forall. intros w Hw. apply in_map_iff in Hw. destruct Hw as (y & <- & Hy). destruct (is_waiting y); [now apply L|].
    rewrite Forall_forall in T. auto.
  - destruct (s_main st) eqn:M; try discriminate. rewrite (close_ok max st I M) in H. now injection H as <- _.
Qed.

Lemma no_fault_step max st e : Inv max st -> Forall tidy (s_workers st) -> step st e <> Fault.
Proof.
  intros I T.
  assert (WS : forall t, worker_step st t e <> Fault).
  { intros t. unfold worker_step, get. destruct (nth_error (s_workers st) t) as [w|] eqn:E; [|discriminate].
    assert (O : member w = true -> is_closed st = false).
    { intros M. pose proof (worker_open max st t w I E M) as NC. unfold is_closed. destruct (s_main st); congruence. }
    unfold member in O. rewrite Forall_forall in T. specialize (T w (nth_error_In _ _ E)). unfold tidy in T.
    destruct e; try discriminate; destruct (w_place w) eqn:P; try discriminate; rewrite ?O by reflexivity; try discriminate.
    - unfold launch. destruct (p_quit _); [discriminate|]. destruct (remove _ _ 0) as [[q n] d]. destruct (d =? 0); [destruct timeout|]; discriminate.
    - rewrite T by reflexivity. discriminate. }
  destruct e; cbn [step]; try apply WS.
  - destruct (may_call st who); [|discriminate]. unfold resource_add.
    destruct f; try discriminate; destruct (_ && _); try discriminate; destruct (signal _ woken); discriminate.
  - destruct (may_call st who); discriminate.
  - destruct (may_call st who); discriminate.
  - destruct (s_main st); discriminate.
  - destruct (s_main st); discriminate.
  - destruct (s_main st) eqn:M; try discriminate. rewrite (close_ok max st I M). discriminate.
Qed.

Lemma no_fault_run max : forall es st, Inv max st -> Forall tidy (s_workers st) -> Forall no_die es -> run st es <> Fault.
Proof.
  induction es as [|e es IH]; intros st I T F; cbn [run]; [discriminate|].
  apply Forall_cons_iff in F. destruct F as [F1 F2].
  pose proof (no_fault_step max st e I T) as NF. destruct (step st e) as [s1 o1| |] eqn:S; [|discriminate|congruence].
  specialize (IH s1 (inv_step _ _ _ _ _ I S) (tidy_step _ _ _ _ _ I T F1 S) F2). destruct (run s1 es); congruence.
Qed.

(** ** Waiting workers and queued resources *)

Definition ready (w : worker) : bool := match w_place w with Locking _ => w_idle w | _ => false end.

Definition roused (st : state) : Prop :=
  p_quit (s_pool st) = false -> 1 <= count is_waiting (s_workers st) ->
  N.of_nat (length (p_queue (s_pool st))) <= count ready (s_workers st).

Lemma waiting_exists ws : existsb is_waiting ws = false -> count is_waiting ws = 0.
Proof.
  induction ws as [|w ws IH]; [reflexivity|]. cbn [existsb]. intros H. apply orb_false_elim in H. destruct H as [A B].
  rewrite count_cons, A, IH by exact B. reflexivity.
Qed.

Lemma waiting_is_idle w : is_waiting w = true -> idle_member w = true.
Proof. unfold is_waiting, idle_member. destruct (w_place w); auto; discriminate. Qed.

Lemma signal_counts ws woken ws' : Forall worker_ok ws -> signal ws woken = Some ws' ->
  (count is_waiting ws' = 0 /\ ws' = ws) \/
  (count is_waiting ws' + 1 = count is_waiting ws /\ count ready ws' = count ready ws + 1).
Proof.
  intros OK H. apply signal_cases in H. destruct H as [[-> H]|(t & w & H & W & ->)].
  - left. split; [|reflexivity]. now apply waiting_exists.
  - right. pose proof (count_upd is_waiting (mkW (Locking false) (w_idle w) (w_data w)) ws t w H) as A.
    pose proof (count_upd ready (mkW (Locking false) (w_idle w) (w_data w)) ws t w H) as B.
    pose proof (nth_ok _ _ _ OK H) as O. apply waiting_inv in W. unfold worker_ok in O. rewrite W in O. destruct O as [_ O].
    assert (A1 : is_waiting w = true) by (unfold is_waiting; now rewrite W).
    assert (A2 : ready w = false) by (unfold ready; now rewrite W).
    change (is_waiting (mkW (Locking false) (w_idle w) (w_data w))) with false in A.
    change (ready (mkW (Locking false) (w_idle w) (w_data w))) with (w_idle w) in B.
    rewrite A1 in A. rewrite A2 in B. rewrite O in A, B |- *. cbn [b2n] in A, B. lia.
Qed.

Lemma remove_shrinks q : forall n d q' n' d', remove q n d = (q', n', d') -> d = 0 ->
  (d' = 0 -> q' = []) /\ (d' <> 0 -> (length q' + 1 <= length q)%nat).
Proof.
  induction q as [|x q IH]; intros n d q' n' d' H Z; cbn [remove] in H.
  - injection H as <- _ <-. split; [auto|congruence].
  - destruct (N.eqb_spec x 0) as [E|E].
    + destruct (IH _ _ _ _ _ H E) as [A B]. split; [exact A|]. intros N. specialize (B N). cbn [length]. lia.
    + injection H as <- _ <-. split; [congruence|]. intros _. cbn [length]. lia.
Qed.

Lemma roused_worker max st t e st' out : Inv max st -> roused st -> worker_step st t e = Done st' out -> roused st'.
Proof.
  intros I R H. unfold worker_step, get in H. destruct (nth_error (s_workers st) t) as [w|] eqn:E; [|discriminate].
  pose proof (nth_ok _ _ _ (i_ok _ _ I) E) as OK. unfold worker_ok in OK. unfold set in H.
  pose proof (fun w' => count_upd is_waiting w' _ t w E) as U1. pose proof (fun w' => count_upd ready w' _ t w E) as U2.
  unfold is_waiting at 2 in U1. unfold ready at 2 in U2. unfold roused in *.
  destruct e; try discriminate H; destruct (w_place w) eqn:P; try discriminate H.
  - destruct (is_closed st); [discriminate|]. unfold launch, set in H. destruct OK as [O1 O2].
    fold (wake_idle (s_pool st) w) in H. pose proof (wake_idle_queue (s_pool st) w) as WQ.
    assert (QQ : p_quit (wake_idle (s_pool st) w) = p_quit (s_pool st)) by (unfold wake_idle; destruct (w_idle w); reflexivity).
    set (p1 := wake_idle (s_pool st) w) in *. clearbody p1.
    destruct (p_quit p1) eqn:Q1.
    + injection H as <- <-. cbn [s_pool member_exit p_quit]. congruence.
    + destruct (remove (p_queue p1) (p_nres p1) 0) as [[q n] d] eqn:RM. destruct (remove_shrinks _ _ _ _ _ _ RM eq_refl) as [S1 S2].
      destruct (N.eqb_spec d 0) as [Z|Z].
      * specialize (S1 Z). subst q. destruct timeout; injection H as <- <-; cbn [s_pool s_workers member_exit p_queue length]; intros _ _; apply N.le_0_l.
      * specialize (S2 Z). injection H as <- <-. cbn [s_pool s_workers p_queue p_quit]. specialize (U1 (mkW Processing false d)).
        specialize (U2 (mkW Processing false d)). cbn [is_waiting ready w_place b2n] in U1, U2. rewrite WQ in S2.
        intros A B. specialize (R (eq_sym QQ) ltac:(lia)). destruct (w_idle w); cbn [b2n] in U2; lia.
  - destruct (is_closed st); [discriminate|]. injection H as <- <-. cbn [s_pool s_workers]. destruct OK as [_ O2].
    specialize (U1 (mkW (Locking true) (w_idle w) (w_data w))). specialize (U2 (mkW (Locking true) (w_idle w) (w_data w))).
    unfold is_waiting at 3 in U1. unfold ready at 3 in U2. cbn [w_place w_idle] in U1, U2. rewrite O2 in *. cbn [b2n] in U1, U2.
    intros A B. specialize (R A ltac:(lia)). lia.
  - destruct (is_closed st); [discriminate|]. injection H as <- <-. cbn [s_pool s_workers]. destruct OK as [_ O2].
    specialize (U1 (mkW (Locking false) (w_idle w) (w_data w))). specialize (U2 (mkW (Locking false) (w_idle w) (w_data w))).
    unfold is_waiting at 3 in U1. unfold ready at 3 in U2. cbn [w_place w_idle] in U1, U2. rewrite O2 in *. cbn [b2n] in U1, U2.
    intros A B. specialize (R A ltac:(lia)). lia.
  - injection H as <- <-. cbn [s_pool s_workers]. specialize (U1 (mkW (Locking false) (w_idle w) 0)). specialize (U2 (mkW (Locking false) (w_idle w) 0)).
    unfold is_waiting at 3 in U1. unfold ready at 3 in U2. cbn [w_place w_idle b2n] in U1, U2. intros A B. specialize (R A ltac:(lia)). lia.
  - destruct (is_closed st); [discriminate|]. injection H as <- <-. cbn [s_pool s_workers member_exit p_quit p_queue].
    specialize (U1 (mkW Leaving (w_idle w) (w_data w))). specialize (U2 (mkW Leaving (w_idle w) (w_data w))).
    unfold is_waiting at 3 in U1. unfold ready at 3 in U2. cbn [w_place w_idle b2n] in U1, U2. intros A B. specialize (R A ltac:(lia)). lia.
  - specialize (U1 (mkW Gone false 0)). specialize (U2 (mkW Gone false 0)). unfold is_waiting at 3 in U1. unfold ready at 3 in U2. cbn [w_place w_idle b2n] in U1, U2.
    destruct (w_data w =? 0); [|destruct (is_closed st); [discriminate|]]; injection H as <- <-; cbn [s_pool s_workers];
      intros A B; specialize (R A ltac:(lia)); lia.
Qed.

Lemma roused_add max st d f woken st' out : Inv max st -> roused st -> (s_main st = InHandler \/ s_main st = Polling) ->
  resource_add st d f woken = Done st' out -> roused st'.
Proof.
  intros I R Hm H. unfold resource_add in H. destruct st as [p ws m]. unfold roused in *. cbn [s_pool s_workers s_main] in *.
  pose proof (i_ok _ _ I) as OK. pose proof (i_idle _ _ I) as ID. unfold open in ID. cbn [s_pool s_workers s_main] in OK, ID.
  assert (O : (match m with Closed => 0 | _ => 1 end) = 1) by (destruct Hm; subst; reflexivity). rewrite O in ID.
  pose proof (count_le is_waiting idle_member ws waiting_is_idle) as LE.
  assert (LQ : N.of_nat (length (p_queue p ++ [d])) = N.of_nat (length (p_queue p)) + 1) by (rewrite app_length; cbn [length]; lia).
  destruct f; [| injection H as <- <-; exact R| |]; cbn [p_idle p_counter p_max] in H;
  (destruct ((p_idle p <=? 1) && (p_counter p <? inc (p_max p))) eqn:C;
   [apply andb_prop in C; destruct C as [C1 C2]; apply N.leb_le in C1|]).
  - destruct (signal _ woken) as [ws'|] eqn:S; [|discriminate]. injection H as <- <-.
    cbn [s_pool s_workers member_join p_quit p_queue].
    set (w := mkW (Locking false) true 0) in *.
    assert (OK' : Forall worker_ok (ws ++ [w])) by (apply Forall_app; split; [exact OK|]; constructor; [split; [reflexivity|discriminate]|constructor]).
    pose proof (signal_counts _ _ _ OK' S) as SC. rewrite !count_app, !count_cons in SC. change (is_waiting w) with false in SC.
    change (ready w) with true in SC. change (count is_waiting []) with 0 in SC. change (count ready []) with 0 in SC. cbn [b2n] in SC.
    intros A B. destruct SC as [[SC _]|[SC1 SC2]]; [lia|]. specialize (R A ltac:(lia)). lia.
  - destruct (signal _ woken) as [ws'|] eqn:S; [|discriminate]. injection H as <- <-. cbn [s_pool s_workers p_quit p_queue].
    intros A B. destruct (signal_counts _ _ _ OK S) as [[SC _]|[SC1 SC2]]; [lia|]. specialize (R A ltac:(lia)). lia.
  - injection H as <- <-. cbn [s_pool s_workers p_quit p_queue]. intros A B. lia.
  - destruct (signal _ woken) as [ws'|] eqn:S; [|discriminate]. injection H as <- <-. cbn [s_pool s_workers p_quit p_queue].
    intros A B. destruct (signal_counts _ _ _ OK S) as [[SC _]|[SC1 SC2]]; [lia|]. specialize (R A ltac:(lia)). lia.
  - injection H as <- <-. cbn [s_pool s_workers member_join p_quit p_queue]. intros A B. rewrite count_app, count_cons in B.
    change (is_waiting (mkW Unborn true 0)) with false in B. change (count is_waiting []) with 0 in B. cbn [b2n] in B. lia.
  - destruct (signal _ woken) as [ws'|] eqn:S; [|discriminate]. injection H as <- <-. cbn [s_pool s_workers p_quit p_queue].
    intros A B. destruct (signal_counts _ _ _ OK S) as [[SC _]|[SC1 SC2]]; [lia|]. specialize (R A ltac:(lia)). lia.
Qed.

Lemma roused_step max st e st' out : Inv max st -> roused st -> step st e = Done st' out -> roused st'.
Proof.
  intros I R H. destruct e; cbn [step] in H; try (eapply roused_worker; eauto; fail).
  - destruct (may_call st who) eqn:M; [|discriminate]. eapply roused_add; eauto. eapply caller_open; eauto.
  - destruct (may_call st who); [|discriminate]. injection H as <- _. intros A. discriminate A.
  - destruct (may_call st who); [|discriminate]. now injection H as <- _.
  - destruct (s_main st); try discriminate. injection H as <- _. intros A. discriminate A.
  - destruct (s_main st) eqn:M; try discriminate. injection H as <- _. intros A. exfalso.
    pose proof (i_quit _ _ I ltac:(congruence)) as Q. unfold poll in A. destruct (_ <=? 1) in A; cbn [s_pool] in A; congruence.
  - destruct (s_main st) eqn:M; try discriminate. rewrite (close_ok max st I M) in H. injection H as <- _. intros _ _. cbn [s_pool p_queue length]. apply N.le_0_l.
Qed.

Lemma roused_run max : forall es st st' out, Inv max st -> roused st -> run st es = Done st' out -> roused st'.
Proof.
  induction es as [|e es IH]; intros st st' out I R H; cbn [run] in H.
  - now injection H as <- _.
  - destruct (step st e) as [s1 o1| |] eqn:S; try discriminate. destruct (run s1 es) as [s2 o2| |] eqn:RR; try discriminate.
    injection H as <- _. eapply IH; [| |exact RR]; [eapply inv_step|eapply roused_step]; eauto.
Qed.

(** ** A queued resource has a worker *)

Definition working (w : worker) : bool := match w_place w with Locking _ | Processing => true | _ => false end.
Definition born (w : worker) : Prop := w_place w <> Unborn.

Definition attended (st : state) : Prop :=
  p_quit (s_pool st) = false -> p_queue (s_pool st) <> [] -> 1 <= count working (s_workers st).

Lemma born_step max st e st' out : Inv max st -> Forall born (s_workers st) -> smooth e -> step st e = Done st' out -> Forall born (s_workers st').
Proof.
  intros I T ND H.
  assert (L : forall pl i d, pl <> Unborn -> born (mkW pl i d)) by (intros pl i d N E; cbn in E; congruence).
  assert (WS : forall t, worker_step st t e = Done st' out -> Forall born (s_workers st')).
  { clear H. intros t H. unfold worker_step, get in H. destruct (nth_error (s_workers st) t) as [w|] eqn:E; [|discriminate].
    unfold set in H.
    destruct e; try discriminate H; try contradiction; destruct (w_place w) eqn:P; try discriminate H.
    - destruct (is_closed st); [discriminate|]. unfold launch, set in H.
      destruct (p_quit _); [|destruct (remove _ _ 0) as [[q n] d]; destruct (d =? 0); [destruct timeout|]];
        injection H as <- <-; (apply Forall_upd; [exact T|]); now apply L.
    - destruct (is_closed st); [discriminate|]. injection H as <- <-. apply Forall_upd; [exact T|]. now apply L.
    - destruct (is_closed st); [discriminate|]. injection H as <- <-. apply Forall_upd; [exact T|]. now apply L.
    - injection H as <- <-. apply Forall_upd; [exact T|]. now apply L.
    - destruct (w_data w =? 0); [|destruct (is_closed st); [discriminate|]]; injection H as <- <-; (apply Forall_upd; [exact T|]); now apply L. }
  destruct e; cbn [step] in H; try (eapply WS; exact H).
  - destruct (may_call st who); [|discriminate]. unfold resource_add in H.
    destruct f; try contradiction; cbn [p_idle p_counter p_max] in H; destruct ((_ <=? 1) && _);
      (destruct (signal _ woken) as [ws'|] eqn:S; [|discriminate]);
      injection H as <- _; cbn [s_workers]; (eapply signal_forall; [| |exact S]; [intros; now apply L|]); [|exact T].
      apply Forall_app; split; [exact T|constructor; [now apply L|constructor]].
  - destruct (may_call st who); [|discriminate]. now injection H as <- _.
  - destruct (may_call st who); [|discriminate]. now injection H as <- _.
  - destruct (s_main st); try discriminate. now injection H as <- _.
  - destruct (s_main st); try discriminate. injection H as <- _. unfold poll. destruct (_ <=? 1); cbn [s_workers]; [exact T|].
    apply Forall_forall. intros w Hw. apply in_map_iff in Hw. destruct Hw as (y & <- & Hy). destruct (is_waiting y); [now apply L|].
    rewrite Forall_forall in T. auto.
  - destruct (s_main st) eqn:M; try discriminate. rewrite (close_ok max st I M) in H. now injection H as <- _.
Qed.

Lemma attended_worker max st t e st' out : Inv max st -> attended st -> own e -> worker_step st t e = Done st' out -> attended st'.
Proof.
  intros I R OW H. unfold worker_step, get in H. destruct (nth_error (s_workers st) t) as [w|] eqn:E; [|discriminate].
  unfold set in H.
  assert (UP : forall w', working w' = true -> 1 <= count working (upd (s_workers st) t w')).
  { intros w' W. apply (count_ge working _ t w'); [|exact W]. apply nth_error_upd_eq. apply nth_error_Some. congruence. }
  pose proof (fun w' => count_upd working w' _ t w E) as U. unfold working at 2 in U. unfold attended in *.
  destruct e; try discriminate H; try contradiction; destruct (w_place w) eqn:P; try discriminate H.
  - destruct (is_closed st); [discriminate|]. unfold launch, set in H.
    fold (wake_idle (s_pool st) w) in H. pose proof (wake_idle_queue (s_pool st) w) as WQ.
    set (p1 := wake_idle (s_pool st) w) in *. clearbody p1.
    destruct (p_quit p1) eqn:Q1.
    + injection H as <- <-. cbn [s_pool member_exit p_quit]. congruence.
    + destruct (remove (p_queue p1) (p_nres p1) 0) as [[q n] d] eqn:RM. destruct (remove_shrinks _ _ _ _ _ _ RM eq_refl) as [S1 S2].
      destruct (N.eqb_spec d 0) as [Z|Z].
      * specialize (S1 Z). subst q. destruct timeout; injection H as <- <-; cbn [s_pool s_workers member_exit p_queue]; congruence.
      * injection H as <- <-. intros _ _. apply UP. reflexivity.
  - destruct (is_closed st); [discriminate|]. injection H as <- <-. intros _ _. apply UP. reflexivity.
  - destruct (is_closed st); [discriminate|]. injection H as <- <-. intros _ _. apply UP. reflexivity.
  - injection H as <- <-. intros _ _. apply UP. reflexivity.
  - specialize (U (mkW Gone false 0)). change (working (mkW Gone false 0)) with false in U. cbn [b2n] in U.
    destruct (w_data w =? 0); [|destruct (is_closed st); [discriminate|]]; injection H as <- <-; cbn [s_pool s_workers];
      intros A B; specialize (R A B); lia.
Qed.

Lemma count_some f ws : (exists w, In w ws /\ f w = true) -> 1 <= count f ws.
Proof. intros (w & Hw & F). apply In_nth_error in Hw. destruct Hw as (i & Hi). eapply count_ge; eauto. Qed.

Lemma count_ex f ws : 1 <= count f ws -> exists i w, nth_error ws i = Some w /\ f w = true.
Proof.
  induction ws as [|w ws IH]; [unfold count; cbn; lia|]. rewrite count_cons. destruct (f w) eqn:F.
  - intros _. exists 0%nat, w. auto.
  - cbn [b2n]. intros H. destruct IH as (i & x & A & B); [lia|]. exists (S i), x. auto.
Qed.

Lemma member_working w : born w -> is_waiting w = false -> member w = true -> working w = true.
Proof. unfold born, is_waiting, member, working. destruct (w_place w); congruence. Qed.

Lemma nobody_waits ws i w : existsb is_waiting ws = false -> nth_error ws i = Some w -> is_waiting w = false.
Proof.
  intros H E. destruct (is_waiting w) eqn:W; [|reflexivity]. enough (existsb is_waiting ws = true) by congruence.
  apply existsb_exists. exists w. split; [eapply nth_error_In; eauto|exact W].
Qed.

Lemma attended_add max st d woken st' out : Inv max st -> Forall born (s_workers st) -> 1 <= max -> max + 1 < 2 ^ 32 ->
  (s_main st = InHandler \/ s_main st = Polling) ->
  resource_add st d NoFailure woken = Done st' out -> attended st'.
Proof.
  intros I B M1 M2 Hm H. unfold resource_add in H. destruct st as [p ws m]. unfold attended. cbn [s_pool s_workers s_main] in *.
  pose proof (i_max _ _ I) as IM. pose proof (i_counter _ _ I) as IC. pose proof (i_idle _ _ I) as ID. unfold open in IC, ID. cbn [s_pool s_workers s_main] in IM, IC, ID.
  assert (O : (match m with Closed => 0 | _ => 1 end) = 1) by (destruct Hm; subst; reflexivity). rewrite O in IC, ID.
  cbn [p_idle p_counter p_max] in H. rewrite IM, (inc_small max M2) in H. rewrite Forall_forall in B.
  destruct ((p_idle p <=? 1) && (p_counter p <? max + 1)) eqn:C.
  - destruct (signal _ woken) as [ws'|] eqn:S; [|discriminate]. injection H as <- <-. intros _ _. cbn [s_workers].
    apply signal_cases in S. destruct S as [[-> _]|(t & w & H & W & ->)].
    + apply count_some. exists (mkW (Locking false) true 0). split; [apply in_or_app; right; now left|reflexivity].
    + apply (count_ge working _ t (mkW (Locking false) (w_idle w) (w_data w))); [|reflexivity]. apply nth_error_upd_eq. apply nth_error_Some. congruence.
  - destruct (signal _ woken) as [ws'|] eqn:S; [|discriminate]. injection H as <- <-. intros _ _. cbn [s_workers].
    apply signal_cases in S. destruct S as [[-> W]|(t & w & H & W & ->)].
    + assert (CM : 1 <= count member ws).
      { apply andb_false_iff in C. destruct C as [C|C].
        - apply N.leb_gt in C. pose proof (count_le idle_member member ws idle_is_member). lia.
        - apply N.ltb_ge in C. lia. }
      apply count_ex in CM. destruct CM as (i & w & E & M). apply (count_ge working _ i w E).
      apply member_working; [apply B; eapply nth_error_In; eauto|eapply nobody_waits; eauto|exact M].
    + apply (count_ge working _ t (mkW (Locking false) (w_idle w) (w_data w))); [|reflexivity]. apply nth_error_upd_eq. apply nth_error_Some. congruence.
Qed.

Lemma attended_step max st e st' out : Inv max st -> Forall born (s_workers st) -> attended st -> 1 <= max -> max + 1 < 2 ^ 32 -> smooth e ->
  step st e = Done st' out -> attended st'.
Proof.
  intros I B R M1 M2 SM H. destruct e; cbn [step] in H; cbn [smooth] in SM; try contradiction;
    try (eapply attended_worker; [exact I|exact R| |exact H]; exact Logic.I).
  - destruct (may_call st who) eqn:M; [|discriminate]. destruct f; try contradiction. eapply attended_add; eauto. eapply caller_open; eauto.
  - destruct (may_call st who); [|discriminate]. injection H as <- _. intros A. discriminate A.
  - destruct (may_call st who); [|discriminate]. now injection H as <- _.
  - destruct (s_main st); try discriminate. injection H as <- _. intros A. discriminate A.
  - destruct (s_main st) eqn:M; try discriminate. injection H as <- _. intros A. exfalso.
    pose proof (i_quit _ _ I ltac:(congruence)) as Q. unfold poll in A. destruct (_ <=? 1) in A; cbn [s_pool] in A; congruence.
  - destruct (s_main st) eqn:M; try discriminate. rewrite (close_ok max st I M) in H. injection H as <- _. intros _ A. cbn [s_pool p_queue] in A. congruence.
Qed.

Lemma attended_run max : 1 <= max -> max + 1 < 2 ^ 32 -> forall es st st' out, Inv max st -> Forall born (s_workers st) -> attended st -> Forall smooth es ->
  run st es = Done st' out -> Forall born (s_workers st') /\ attended st'.
Proof.
  intros M1 M2. induction es as [|e es IH]; intros st st' out I B R F H; cbn [run] in H.
  - now injection H as <- _.
  - apply Forall_cons_iff in F. destruct F as [F1 F2].
    destruct (step st e) as [s1 o1| |] eqn:S; try discriminate. destruct (run s1 es) as [s2 o2| |] eqn:RR; try discriminate.
    injection H as <- _. eapply IH; [| | | |exact RR]; [eapply inv_step|eapply born_step|eapply attended_step|]; eauto.
Qed.

Lemma born_run max : forall es st st' out, Inv max st -> Forall born (s_workers st) -> Forall smooth es ->
  run st es = Done st' out -> Forall born (s_workers st').
Proof.
  induction es as [|e es IH]; intros st st' out I B F H; cbn [run] in H.
  - now injection H as <- _.
  - apply Forall_cons_iff in F. destruct F as [F1 F2].
    destruct (step st e) as [s1 o1| |] eqn:S; try discriminate. destruct (run s1 es) as [s2 o2| |] eqn:RR; try discriminate.
    injection H as <- _. eapply IH; [| | |exact RR]; [eapply inv_step|eapply born_step|]; eauto.
Qed.

(** The next worker to run takes the first resource. *)
Lemma take_first max st t to w d rest : Inv max st -> nth_error (s_workers st) t = Some w -> w_place w = Locking to ->
  p_quit (s_pool st) = false -> queued st = d :: rest ->
  exists st', step st (Run t) = Done st' [Took t d] /\ queued st' = rest.
Proof.
  intros I E P Q QD. cbn [step]. unfold worker_step, get. rewrite E, P.
  assert (M : member w = true) by (unfold member; now rewrite P).
  pose proof (worker_open max st t w I E M) as NC. unfold is_closed. destruct (s_main st) eqn:SM; try congruence;
  (unfold launch; fold (wake_idle (s_pool st) w); pose proof (wake_idle_queue (s_pool st) w) as WQ;
   assert (QQ : p_quit (wake_idle (s_pool st) w) = p_quit (s_pool st)) by (unfold wake_idle; destruct (w_idle w); reflexivity);
   rewrite QQ, Q, WQ; unfold queued in QD;
   assert (RM : forall q n x, flat_map some q = d :: rest -> exists q' n', remove q n x = (q', n', d) /\ flat_map some q' = rest /\ d <> 0);
   [ clear; induction q as [|y q IH]; intros n x H; [discriminate|]; cbn [flat_map] in H; cbn [remove]; unfold some at 1 in H;
     destruct (N.eqb_spec y 0) as [Z|Z]; [apply IH; exact H|]; cbn [app] in H; injection H as -> H; exists q, (n - 1); auto
   | destruct (RM (p_queue (s_pool st)) (p_nres (wake_idle (s_pool st) w)) 0 QD) as (q' & n' & R1 & R2 & R3); rewrite R1;
     apply N.eqb_neq in R3; rewrite R3; eexists; split; [reflexivity|exact R2] ]).
Qed.

Lemma served max st d rest : Inv max st -> attended st -> p_quit (s_pool st) = false -> queued st = d :: rest ->
  exists t, (exists st', run st [Run t] = Done st' [Took t d] /\ queued st' = rest) \/
            (exists st' x, run st [Finish t; Run t] = Done st' [Finished t x; Took t d] /\ queued st' = rest).
Proof.
  intros I A Q QD. assert (NQ : p_queue (s_pool st) <> []) by (intros Z; unfold queued in QD; rewrite Z in QD; discriminate).
  specialize (A Q NQ). apply count_ex in A. destruct A as (t & w & E & W). exists t.
  unfold working in W. destruct (w_place w) as [to| | | | |] eqn:P; try discriminate.
  - left. destruct (take_first max st t to w d rest I E P Q QD) as (st' & S & R). exists st'. cbn [run]. rewrite S. auto.
  - right. set (st1 := mkS (s_pool st) (upd (s_workers st) t (mkW (Locking false) (w_idle w) 0)) (s_main st)).
    assert (S1 : step st (Finish t) = Done st1 [Finished t (w_data w)]) by (cbn [step]; unfold worker_step, get; now rewrite E, P).
    pose proof (inv_step _ _ _ _ _ I S1) as I1.
    destruct (take_first max st1 t false (mkW (Locking false) (w_idle w) 0) d rest I1) as (st' & S & R); auto.
    { cbn [s_workers st1]. apply nth_error_upd_eq. apply nth_error_Some. congruence. }
    exists st', (w_data w). cbn [run]. rewrite S1, S. auto.
Qed.

(** ** The queue drains *)

Definition weigh (pot : worker -> N) (ws : list worker) : N := fold_right (fun w a => pot w + a) 0 ws.

Lemma weigh_upd pot w' : forall ws t w, nth_error ws t = Some w -> weigh pot (upd ws t w') + pot w = weigh pot ws + pot w'.
Proof.
  induction ws as [|x ws IH]; intros [|t] w H; cbn [nth_error] in H; try discriminate; cbn [upd weigh fold_right].
  - injection H as ->. lia.
  - specialize (IH _ _ H). unfold weigh in IH. lia.
Qed.

Lemma weigh_le pot k ws : (forall w, pot w <= k) -> weigh pot ws <= k * N.of_nat (length ws).
Proof. intros H. induction ws as [|w ws IH]; cbn [weigh fold_right length]; [lia|]. specialize (H w). unfold weigh in IH. lia. Qed.

Definition effort (w : worker) : N := match w_place w with Processing => 1 | Waiting => 2 | Leaving => 1 | _ => 0 end.
Definition load (st : state) : N := 2 * N.of_nat (length (p_queue (s_pool st))) + weigh effort (s_workers st).

Lemma drain_step st e st' out : own e -> p_quit (s_pool st) = false -> step st e = Done st' out ->
  p_quit (s_pool st') = false /\ length (s_workers st') = length (s_workers st) /\
  (p_queue (s_pool st') = [] \/ (p_queue (s_pool st) <> [] /\ load st' + 1 <= load st)).
Proof.
  intros OW Q H.
  assert (WS : exists t, worker_step st t e = Done st' out) by (destruct e; try contradiction; eexists; exact H).
  clear H. destruct WS as [t H]. unfold worker_step, get in H. destruct (nth_error (s_workers st) t) as [w|] eqn:E; [|discriminate].
  pose proof (fun w' => weigh_upd effort w' _ t w E) as U. unfold effort at 2 in U. unfold set in H.
  assert (NE : forall q : list N, q = [] \/ q <> []) by (intros [|]; [now left|right; discriminate]).
  destruct e; try discriminate H; try contradiction; destruct (w_place w) eqn:P; try discriminate H.
  - destruct (is_closed st); [discriminate|]. unfold launch, set in H.
    fold (wake_idle (s_pool st) w) in H. pose proof (wake_idle_queue (s_pool st) w) as WQ.
    assert (QQ : p_quit (wake_idle (s_pool st) w) = p_quit (s_pool st)) by (unfold wake_idle; destruct (w_idle w); reflexivity).
    set (p1 := wake_idle (s_pool st) w) in *. clearbody p1. rewrite Q in QQ. rewrite QQ in H.
    destruct (remove (p_queue p1) (p_nres p1) 0) as [[q n] d] eqn:RM. destruct (remove_shrinks _ _ _ _ _ _ RM eq_refl) as [S1 S2].
    destruct (N.eqb_spec d 0) as [Z|Z].
    + specialize (S1 Z). subst q. destruct timeout; injection H as <- <-; cbn [s_pool s_workers member_exit p_queue p_quit]; rewrite upd_length; auto.
    + specialize (S2 Z). injection H as <- <-. unfold load. cbn [s_pool s_workers p_queue p_quit]. rewrite upd_length. split; [reflexivity|]. split; [reflexivity|].
      right. rewrite <- WQ. split; [intros X; rewrite X in S2; cbn in S2; lia|].
      specialize (U (mkW Processing false d)). change (effort (mkW Processing false d)) with 1 in U. lia.
  - destruct (is_closed st); [discriminate|]. injection H as <- <-. unfold load. cbn [s_pool s_workers]. rewrite upd_length. split; [exact Q|]. split; [reflexivity|].
    destruct (NE (p_queue (s_pool st))); [now left|right]. split; [assumption|].
    specialize (U (mkW (Locking true) (w_idle w) (w_data w))). unfold effort at 3 in U. cbn [w_place] in U. lia.
  - destruct (is_closed st); [discriminate|]. injection H as <- <-. unfold load. cbn [s_pool s_workers]. rewrite upd_length. split; [exact Q|]. split; [reflexivity|].
    destruct (NE (p_queue (s_pool st))); [now left|right]. split; [assumption|].
    specialize (U (mkW (Locking false) (w_idle w) (w_data w))). unfold effort at 3 in U. cbn [w_place] in U. lia.
  - injection H as <- <-. unfold load. cbn [s_pool s_workers]. rewrite upd_length. split; [exact Q|]. split; [reflexivity|].
    destruct (NE (p_queue (s_pool st))); [now left|right]. split; [assumption|].
    specialize (U (mkW (Locking false) (w_idle w) 0)). unfold effort at 3 in U. cbn [w_place] in U. lia.
  - specialize (U (mkW Gone false 0)). unfold effort at 3 in U. cbn [w_place] in U.
    destruct (w_data w =? 0); [|destruct (is_closed st); [discriminate|]]; injection H as <- <-; unfold load; cbn [s_pool s_workers];
    (rewrite upd_length; split; [exact Q|]; split; [reflexivity|]; destruct (NE (p_queue (s_pool st))); [now left|right]; split; [assumption|]; lia).
Qed.

Lemma drain_run : forall es st st' out, Forall own es -> p_quit (s_pool st) = false -> run st es = Done st' out ->
  p_quit (s_pool st') = false /\ (p_queue (s_pool st) = [] -> p_queue (s_pool st') = []) /\
  (p_queue (s_pool st') = [] \/ load st' + N.of_nat (length es) <= load st).
Proof.
  induction es as [|e es IH]; intros st st' out F Q H; cbn [run] in H.
  - injection H as <- _. cbn [length]. split; [exact Q|]. split; [auto|]. right. lia.
  - apply Forall_cons_iff in F. destruct F as [F1 F2].
    destruct (step st e) as [s1 o1| |] eqn:S; try discriminate. destruct (run s1 es) as [s2 o2| |] eqn:RR; try discriminate.
    injection H as <- _. destruct (drain_step _ _ _ _ F1 Q S) as (Q1 & L1 & D). destruct (IH _ _ _ F2 Q1 RR) as (Q2 & K & D2).
    split; [exact Q2|]. cbn [length]. split.
    + intros Z. destruct D as [D|[D _]]; [auto|congruence].
    + destruct D as [D|[_ D]]; [auto|]. destruct D2 as [D2|D2]; [auto|]. right. lia.
Qed.

Lemma drained es st st' out : Forall own es -> p_quit (s_pool st) = false -> run st es = Done st' out ->
  (2 * (length (p_queue (s_pool st)) + length (s_workers st)) <= length es)%nat -> p_queue (s_pool st') = [].
Proof.
  intros F Q H L. destruct (drain_run _ _ _ _ F Q H) as (_ & K & D). destruct D as [D|D]; [exact D|].
  assert (E : forall w, effort w <= 2) by (intros w; unfold effort; destruct (w_place w); lia).
  pose proof (weigh_le effort 2 (s_workers st) E). unfold load in D.
  destruct (p_queue (s_pool st')) as [|x q]; [reflexivity|]. cbn [length] in D. lia.
Qed.

(** ** The pool comes to an end *)

Definition remains (w : worker) : N := match w_place w with Processing => 4 | Waiting => 3 | Locking _ => 2 | Leaving => 1 | _ => 0 end.
Definition work (st : state) : N := weigh remains (s_workers st).

Lemma end_step st e st' out : own e -> p_quit (s_pool st) = true -> step st e = Done st' out ->
  p_quit (s_pool st') = true /\ s_main st' = s_main st /\ p_queue (s_pool st') = p_queue (s_pool st) /\ took out = [] /\ dropped out = [] /\
  work st' + 1 <= work st.
Proof.
  intros OW Q H.
  assert (WS : exists t, worker_step st t e = Done st' out) by (destruct e; try contradiction; eexists; exact H).
  clear H. destruct WS as [t H]. unfold worker_step, get in H. destruct (nth_error (s_workers st) t) as [w|] eqn:E; [|discriminate].
  pose proof (fun w' => weigh_upd remains w' _ t w E) as U. unfold remains at 2 in U. unfold set in H. unfold work.
  destruct e; try discriminate H; try contradiction; destruct (w_place w) eqn:P; try discriminate H.
  - destruct (is_closed st); [discriminate|]. unfold launch, set in H.
    fold (wake_idle (s_pool st) w) in H. pose proof (wake_idle_queue (s_pool st) w) as WQ.
    assert (QQ : p_quit (wake_idle (s_pool st) w) = p_quit (s_pool st)) by (unfold wake_idle; destruct (w_idle w); reflexivity).
    set (p1 := wake_idle (s_pool st) w) in *. clearbody p1. rewrite Q in QQ. rewrite QQ in H.
    injection H as <- <-. cbn [s_pool s_workers s_main member_exit p_quit p_queue]. repeat split; auto.
    specialize (U (mkW Leaving true (w_data w))). unfold remains at 3 in U. cbn [w_place] in U. lia.
  - destruct (is_closed st); [discriminate|]. injection H as <- <-. cbn [s_pool s_workers s_main]. repeat split; auto.
    specialize (U (mkW (Locking true) (w_idle w) (w_data w))). unfold remains at 3 in U. cbn [w_place] in U. lia.
  - destruct (is_closed st); [discriminate|]. injection H as <- <-. cbn [s_pool s_workers s_main]. repeat split; auto.
    specialize (U (mkW (Locking false) (w_idle w) (w_data w))). unfold remains at 3 in U. cbn [w_place] in U. lia.
  - injection H as <- <-. cbn [s_pool s_workers s_main]. repeat split; auto.
    specialize (U (mkW (Locking false) (w_idle w) 0)). unfold remains at 3 in U. cbn [w_place] in U. lia.
  - specialize (U (mkW Gone false 0)). unfold remains at 3 in U. cbn [w_place] in U.
    destruct (w_data w =? 0); [|destruct (is_closed st); [discriminate|]]; injection H as <- <-; cbn [s_pool s_workers s_main]; repeat split; auto; lia.
Qed.

Lemma end_run : forall es st st' out, Forall own es -> p_quit (s_pool st) = true -> run st es = Done st' out ->
  p_quit (s_pool st') = true /\ s_main st' = s_main st /\ took out = [] /\ work st' + N.of_nat (length es) <= work st.
Proof.
  induction es as [|e es IH]; intros st st' out F Q H; cbn [run] in H.
  - injection H as <- <-. cbn [length]. repeat split; auto. lia.
  - apply Forall_cons_iff in F. destruct F as [F1 F2].
    destruct (step st e) as [s1 o1| |] eqn:S; try discriminate. destruct (run s1 es) as [s2 o2| |] eqn:RR; try discriminate.
    injection H as <- <-. destruct (end_step _ _ _ _ F1 Q S) as (Q1 & M1 & _ & T1 & _ & W1). destruct (IH _ _ _ F2 Q1 RR) as (Q2 & M2 & T2 & W2).
    repeat split; auto; [congruence| |cbn [length]; lia]. unfold took in *. rewrite flat_map_app, T1, T2. reflexivity.
Qed.

Lemma end_bound es st st' out : Forall own es -> p_quit (s_pool st) = true -> run st es = Done st' out ->
  (length es <= 4 * length (s_workers st))%nat /\ took out = [].
Proof.
  intros F Q H. destruct (end_run _ _ _ _ F Q H) as (_ & _ & T & W).
  assert (E : forall w, remains w <= 4) by (intros w; unfold remains; destruct (w_place w); lia).
  pose proof (weigh_le remains 4 (s_workers st) E). unfold work in W. split; [lia|exact T].
Qed.

(** A worker that is not gone can go on. *)
Lemma can_go max st t w : Inv max st -> Forall tidy (s_workers st) -> nth_error (s_workers st) t = Some w -> born w -> w_place w <> Gone ->
  exists e st' out, own e /\ step st e = Done st' out.
Proof.
  intros I T E B G.
  pose proof (no_fault_step max st) as NF.
  assert (X : exists e, own e /\ step st e <> Disabled).
  { unfold born in B. destruct (w_place w) eqn:P; try congruence.
    - exists (Run t). split; [exact Logic.I|]. cbn [step]. unfold worker_step, get. rewrite E, P. destruct (is_closed st); [discriminate|].
      unfold launch. destruct (p_quit _); [discriminate|]. destruct (remove _ _ 0) as [[q n] d]. destruct (d =? 0); [destruct timeout|]; discriminate.
    - exists (Wake t). split; [exact Logic.I|]. cbn [step]. unfold worker_step, get. rewrite E, P. destruct (is_closed st); discriminate.
    - exists (Finish t). split; [exact Logic.I|]. cbn [step]. unfold worker_step, get. rewrite E, P. discriminate.
    - exists (Reap t). split; [exact Logic.I|]. cbn [step]. unfold worker_step, get. rewrite E, P. destruct (w_data w =? 0); [discriminate|]. destruct (is_closed st); discriminate. }
  destruct X as (e & O & D). specialize (NF e I T). destruct (step st e) as [s o| |] eqn:S; try congruence. exists e, s, o. auto.
Qed.

Lemma own_smooth e : own e -> smooth e.
Proof. destruct e; cbn; auto; contradiction. Qed.
Lemma smooth_no_die e : smooth e -> no_die e.
Proof. destruct e; cbn; auto. Qed.

Lemma run_app : forall es1 es2 st st1 out1, run st es1 = Done st1 out1 ->
  run st (es1 ++ es2) = match run st1 es2 with Done st2 out2 => Done st2 (out1 ++ out2) | r => r end.
Proof.
  induction es1 as [|e es1 IH]; intros es2 st st1 out1 H; cbn [run app] in *.
  - injection H as <- <-. cbn [app]. destruct (run st es2); reflexivity.
  - destruct (step st e) as [s o| |]; try discriminate. destruct (run s es1) as [s1 o1| |] eqn:R; try discriminate.
    injection H as <- <-. rewrite (IH _ _ _ _ R). destruct (run s1 es2); auto. now rewrite app_assoc.
Qed.

Lemma all_gone st : (exists t w, nth_error (s_workers st) t = Some w /\ w_place w <> Gone) \/ Forall (fun w => w_place w = Gone) (s_workers st).
Proof.
  induction (s_workers st) as [|w ws IH]; [right; constructor|]. destruct (w_place w) eqn:P.
  6: left; exists 0%nat, w; split; [reflexivity|congruence].
  5: destruct IH as [(t & x & A & B)|F]; [left; exists (S t), x; auto|right; constructor; auto].
  all: left; exists 0%nat, w; split; [reflexivity|congruence].
Qed.

Lemma finale max st : Inv max st -> s_main st = Polling -> Forall (fun w => w_place w = Gone) (s_workers st) ->
  exists st', run st [Poll; Close] = Done st' (map Dropped (p_queue (s_pool st))) /\ s_main st' = Closed.
Proof.
  intros I M G.
  assert (C : p_counter (s_pool st) = 1).
  { rewrite (i_counter _ _ I). unfold open. rewrite M. enough (count member (s_workers st) = 0) by lia.
    clear - G. induction G as [|w ws E G IH]; [reflexivity|]. rewrite count_cons, IH. unfold member. now rewrite E. }
  assert (S1 : step st Poll = Done (mkS (s_pool st) (s_workers st) Exiting) []).
  { cbn [step]. rewrite M. unfold poll. rewrite C. reflexivity. }
  pose proof (inv_step _ _ _ _ _ I S1) as I1.
  cbn [run]. rewrite S1. cbn [step s_main]. rewrite (close_ok max _ I1 eq_refl). eexists. split; [cbn [app]; rewrite app_nil_r; reflexivity|reflexivity].
Qed.

Lemma ending max : forall n st, (N.to_nat (work st) <= n)%nat -> Inv max st -> Forall tidy (s_workers st) -> Forall born (s_workers st) ->
  s_main st = Polling ->
  exists es st' out, run st es = Done st' out /\ s_main st' = Closed /\ took out = [] /\ dropped out = queued st.
Proof.
  induction n as [|n IH]; intros st L I T B M;
  (destruct (all_gone st) as [(t & w & E & G)|G];
   [|destruct (finale max st I M G) as (st' & R & C); exists [Poll; Close], st', (map Dropped (p_queue (s_pool st))); split; [exact R|]; split; [exact C|];
     unfold took, dropped, queued; clear; split; (induction (p_queue (s_pool st)) as [|x q IH]; [reflexivity|]; cbn [map flat_map]; rewrite IH; reflexivity)]);
  (assert (BW : born w) by (rewrite Forall_forall in B; apply B; eapply nth_error_In; eauto);
   destruct (can_go max st t w I T E BW G) as (e & s1 & o1 & O & S);
   pose proof (i_quit _ _ I ltac:(congruence)) as Q;
   destruct (end_step _ _ _ _ O Q S) as (Q1 & M1 & QE & T1 & D1 & W1)).
  - lia.
  - destruct (IH s1) as (es & st' & out & R & C & TT & DD).
    + lia.
    + eapply inv_step; eauto.
    + eapply tidy_step; eauto. now apply smooth_no_die, own_smooth.
    + eapply born_step; eauto. now apply own_smooth.
    + congruence.
    + exists (e :: es), st', (o1 ++ out). cbn [run]. rewrite S, R. split; [reflexivity|]. split; [exact C|].
      unfold took, dropped in *. rewrite !flat_map_app, T1, D1, TT, DD. split; [reflexivity|]. cbn [app]. unfold queued. now rewrite QE.
Qed.

Lemma tidy_run max : forall es st st' out, Inv max st -> Forall tidy (s_workers st) -> Forall no_die es -> run st es = Done st' out -> Forall tidy (s_workers st').
Proof.
  induction es as [|e es IH]; intros st st' out I T F H; cbn [run] in H.
  - now injection H as <- _.
  - apply Forall_cons_iff in F. destruct F as [F1 F2].
    destruct (step st e) as [s1 o1| |] eqn:S; try discriminate. destruct (run s1 es) as [s2 o2| |] eqn:RR; try discriminate.
    injection H as <- _. eapply IH; [| | |exact RR]; [eapply inv_step|eapply tidy_step|]; eauto.
Qed.

Lemma own_drops : forall es st st' out, Forall own es -> run st es = Done st' out -> dropped out = [].
Proof.
  induction es as [|e es IH]; intros st st' out F H; cbn [run] in H.
  - now injection H as _ <-.
  - apply Forall_cons_iff in F. destruct F as [F1 F2].
    destruct (step st e) as [s1 o1| |] eqn:S; try discriminate. destruct (run s1 es) as [s2 o2| |] eqn:RR; try discriminate.
    injection H as _ <-. unfold dropped in *. rewrite flat_map_app, (IH _ _ _ F2 RR), app_nil_r. clear RR IH.
    assert (WS : exists t, worker_step st t e = Done s1 o1) by (destruct e; try contradiction; eexists; exact S).
    destruct WS as [t H]. unfold worker_step in H. destruct (get st t) as [w|]; [|discriminate].
    destruct e; try contradiction; destruct (w_place w); try discriminate H; try (destruct (is_closed st); [discriminate|]); try (now injection H as _ <-).
    + unfold launch in H. destruct (p_quit _); [now injection H as _ <-|]. destruct (remove _ _ 0) as [[q n] d]. destruct (d =? 0); [destruct timeout|]; now injection H as _ <-.
    + destruct (w_data w =? 0); [now injection H as _ <-|]. destruct (is_closed st); [discriminate|]. now injection H as _ <-.
Qed.

(** Nothing is queued once the pool is freed. *)
Definition hollow (st : state) : Prop := s_main st = Closed -> p_queue (s_pool st) = [].

Lemma hollow_step max st e st' out : Inv max st -> hollow st -> step st e = Done st' out -> hollow st'.
Proof.
  intros I R H.
  assert (WS : forall t, worker_step st t e = Done st' out -> hollow st').
  { clear H. intros t H. unfold worker_step in H. destruct (get st t) as [w|]; [|discriminate]. unfold hollow in *. unfold is_closed in H.
    destruct e; try discriminate H; destruct (w_place w); try discriminate H;
      try (now injection H as <- _);
      try (destruct (w_data w =? 0); [now injection H as <- _|]);
      destruct (s_main st) eqn:M; try discriminate H; try (injection H as <- _; cbn [s_main s_pool]; congruence);
      (unfold launch in H; destruct (p_quit _); [|destruct (remove _ _ 0) as [[q n] d]; destruct (d =? 0); [destruct timeout|]];
        injection H as <- _; cbn [s_main s_pool]; congruence). }
  unfold hollow in *. destruct e; cbn [step] in H; try (eapply WS; exact H).
  - destruct (may_call st who) eqn:MC; [|discriminate]. pose proof (caller_open _ _ _ I MC) as O. intros C. exfalso.
    enough (s_main st' = s_main st) by (destruct O; congruence). unfold resource_add in H. cbn zeta in H.
    destruct f; [|now injection H as <- _| |]; destruct (_ && _); try (now injection H as <- _); (destruct (signal _ woken); [now injection H as <- _|discriminate]).
  - destruct (may_call st who); [|discriminate]. now injection H as <- _.
  - destruct (may_call st who); [|discriminate]. now injection H as <- _.
  - destruct (s_main st); try discriminate. injection H as <- _. cbn [s_main]. discriminate.
  - destruct (s_main st); try discriminate. injection H as <- _. unfold poll. destruct (_ <=? 1); cbn [s_main]; discriminate.
  - destruct (s_main st) eqn:M; try discriminate. rewrite (close_ok max st I M) in H. now injection H as <- _.
Qed.

Lemma hollow_run max : forall es st st' out, Inv max st -> hollow st -> run st es = Done st' out -> hollow st'.
Proof.
  induction es as [|e es IH]; intros st st' out I R H; cbn [run] in H.
  - now injection H as <- _.
  - destruct (step st e) as [s1 o1| |] eqn:S; try discriminate. destruct (run s1 es) as [s2 o2| |] eqn:RR; try discriminate.
    injection H as <- _. eapply IH; [| |exact RR]; [eapply inv_step|eapply hollow_step]; eauto.
Qed.

Require Import List Arith Bool Lia.
Require Import Verif.Base Verif.LschedModel Verif.LschedSpec.
Import ListNotations.

Definition job_of (p : pc) : option nat := match p with In_ j _ | Check j _ | Leave j | Ended j => Some j | _ => None end.
Definition live (s : state) (j : nat) : Prop := In j (runq s) \/ In j (waitq s).
Record inv (s : state) (h : list event) : Prop := mkI {
  i_q : runq s = queue h; i_w : waitq s = sleepers h;
  i_run : forall j, In j (runq s) -> ref (info s j) = false; i_wait : forall j, In j (waitq s) -> ref (info s j) = true;
  i_new : forall j, live s j -> j < made s; i_prog : forall j, program h j <> None -> j < made s;
  i_done : forall j, done h j <> [] -> j < made s; i_qm : forall j, quitting h j = true -> j < made s;
  i_made : forall t j, job_of (pcs s t) = Some j -> j < made s;
  i_info : forall j, live s j -> program h j = Some (done h j ++ prog (info s j)) /\ quit (info s j) = existsb quits (done h j);
  i_pc : forall t, inside h t = job_of (pcs s t);
  i_own : forall j t, live s j -> (owner (info s j) = Some t <-> job_of (pcs s t) = Some j);
  i_turn : forall t, match pcs s t with In_ j n => turn h t = n /\ n <= 1700 | Check j n => turn h t = S n /\ n < 1700
                     | Leave j => turn h t = 1700 \/ paused h j = true | _ => True end;
  i_paused : forall j, live s j -> owner (info s j) <> None -> ref (info s j) = true -> paused h j = true;
  i_quit : forall j, live s j -> quitting h j = true ->
           quit (info s j) = true /\ (ref (info s j) = true \/ exists t, (exists n, pcs s t = Check j n) \/ pcs s t = Ended j);
  i_in : forall t j n, pcs s t = In_ j n -> quitting h j = false;
  i_end : forall t j, pcs s t = Ended j -> live s j -> prog (info s j) = [] \/ quit (info s j) = true;
  i_flag : runq s <> [] -> flag s = true \/ exists t, pcs s t <> Out;
  i_dm : forall j, overran h j = true -> j < made s;
  i_dr : forall j, live s j -> overran h j = true -> ref (info s j) = true;
  i_di : forall t j n, pcs s t = In_ j n -> overran h j = false }.

Lemma del_in x j l : In x (del j l) <-> In x l /\ x <> j.
Proof. unfold del. rewrite filter_In, negb_true_iff, Nat.eqb_neq. tauto. Qed.
Lemma del_out j l : ~ In j l -> del j l = l.
Proof.
  unfold del. induction l as [|a l IH]; intros H; [reflexivity|]. cbn [filter].
  destruct (Nat.eqb_spec a j) as [->|n]; cbn [negb]; [exfalso; apply H; left; reflexivity|]. rewrite IH; [reflexivity|]. intros C; apply H; right; exact C.
Qed.
Lemma held_live s j : held s j = true <-> live s j.
Proof.
  unfold held, live. rewrite orb_true_iff, !existsb_exists. split.
  - intros [(x & Hx & E)|(x & Hx & E)]; apply Nat.eqb_eq in E; subst x; tauto.
  - intros [H|H]; [left|right]; exists j; rewrite Nat.eqb_refl; auto.
Qed.
Lemma live_alive s h j : inv s h -> (live s j <-> alive h j).
Proof. intros I. unfold live, alive. rewrite (i_q _ _ I), (i_w _ _ I). tauto. Qed.
Lemma upd_same {A} (f : nat -> A) i a : upd f i a i = a.
Proof. unfold upd. rewrite Nat.eqb_refl. reflexivity. Qed.
Lemma upd_other {A} (f : nat -> A) i a x : x <> i -> upd f i a x = f x.
Proof. unfold upd. destruct (Nat.eqb_spec x i); congruence. Qed.
Lemma nonempty_true l : l <> [] <-> nonempty l = true.
Proof. destruct l; cbn [nonempty]; split; congruence. Qed.

Lemma inv_start : inv start [].
Proof.
  constructor; cbn; try (unfold live; cbn); intros; try tauto; try congruence; try discriminate; try lia.
Qed.

(** The step of a thread that changes only where it is. *)
Lemma inv_move s h t p :
  inv s h -> job_of p = job_of (pcs s t) ->
  match p with In_ j n => turn h t = n /\ n <= 1700 /\ quitting h j = false /\ overran h j = false | Check j n => pcs s t = Check j n
             | Leave j => turn h t = 1700 \/ paused h j = true | Ended j => live s j -> prog (info s j) = [] \/ quit (info s j) = true | _ => True end ->
  (forall j n, pcs s t = Check j n -> live s j -> quitting h j = true -> ref (info s j) = true \/ p = Check j n \/ p = Ended j) ->
  (forall j, pcs s t = Ended j -> p = Ended j) -> (p = Out -> pcs s t = Out) ->
  inv (at_ s t p) h.
Proof.
  intros I Ej Hp Hc He Ho.
  assert (J : forall u, job_of (upd (pcs s) t p u) = job_of (pcs s u)).
  { intros u. destruct (Nat.eq_dec u t) as [->|n]; [rewrite upd_same; exact Ej|rewrite upd_other by exact n; reflexivity]. }
  constructor; unfold live; cbn [runq waitq info pcs flag made at_]; try apply I.
  - intros u j. rewrite J. apply I.
  - intros u. rewrite J. apply I.
  - intros j u L. rewrite J. apply I. exact L.
  - intros u. destruct (Nat.eq_dec u t) as [->|n]; [rewrite upd_same|rewrite upd_other by exact n; apply I].
    destruct p; try tauto. pose proof (i_turn _ _ I t) as T. rewrite Hp in T. exact T.
  - intros j L Q. destruct (i_quit _ _ I j L Q) as (A & [B|(u & B)]); split; auto.
    destruct (Nat.eq_dec u t) as [->|n].
    + destruct B as [(n & B)|B].
      * destruct (Hc j n B L Q) as [C|[C|C]]; [auto| |]; right; exists t; rewrite upd_same; [left; exists n|right]; exact C.
      * right. exists t. rewrite upd_same. right. apply He. exact B.
    + right. exists u. rewrite upd_other by exact n. exact B.
  - intros u j n. destruct (Nat.eq_dec u t) as [->|m]; [rewrite upd_same|rewrite upd_other by exact m; apply I]. intros ->. tauto.
  - intros u j. destruct (Nat.eq_dec u t) as [->|m]; [rewrite upd_same|rewrite upd_other by exact m; apply I]. intros ->. exact Hp.
  - intros R. destruct (i_flag _ _ I R) as [F|(u & U)]; [auto|]. right. exists u.
    destruct (Nat.eq_dec u t) as [->|m]; [rewrite upd_same; tauto|rewrite upd_other by exact m; exact U].
  - intros u j n. destruct (Nat.eq_dec u t) as [->|m]; [rewrite upd_same|rewrite upd_other by exact m; apply I]. intros ->. tauto.
Qed.

Lemma inv_new s h p : inv s h ->
  inv (mkS (runq s ++ [made s]) (waitq s) (upd (info s) (made s) (mkJ p false false None)) (pcs s) true (S (made s))) (Born (made s) p :: h)
  /\ legal h (Born (made s) p).
Proof.
  intros I.
  assert (N : ~ live s (made s)) by (intros L; apply (i_new _ _ I) in L; lia).
  assert (M : forall j, j <> made s -> upd (info s) (made s) (mkJ p false false None) j = info s j) by (intros j n; apply upd_other; exact n).
  assert (Lv : forall j, In j (runq s ++ [made s]) \/ In j (waitq s) -> j = made s \/ (j <> made s /\ live s j)).
  { intros j. rewrite in_app_iff. cbn [In]. unfold live. destruct (Nat.eq_dec j (made s)); [auto|]. intuition. }
  split.
  - constructor; unfold live; cbn [runq waitq info pcs flag made queue sleepers program done quitting inside turn paused overran].
    + rewrite (i_q _ _ I). reflexivity.
    + apply I.
    + intros j. rewrite in_app_iff. intros [H|[<-|[]]]; [|rewrite upd_same; reflexivity].
      rewrite M; [apply I; exact H|]. intros ->. apply N. left. exact H.
    + intros j H. rewrite M; [apply I; exact H|]. intros ->. apply N. right. exact H.
    + intros j H. destruct (Lv j H) as [->|(n & L)]; [lia|]. apply (i_new _ _ I) in L. lia.
    + intros j. destruct (Nat.eqb_spec (made s) j) as [<-|n]; [lia|]. intros H. apply (i_prog _ _ I) in H. lia.
    + intros j H. apply (i_done _ _ I) in H. lia.
    + intros j H. apply (i_qm _ _ I) in H. lia.
    + intros t j H. apply (i_made _ _ I) in H. lia.
    + intros j H. destruct (Lv j H) as [->|(n & L)].
      * rewrite upd_same, Nat.eqb_refl. cbn [prog quit].
        assert (D : done h (made s) = []). { destruct (done h (made s)) eqn:E; [reflexivity|]. assert (C : done h (made s) <> []) by congruence. apply (i_done _ _ I) in C. lia. }
        rewrite D. split; reflexivity.
      * rewrite M by exact n. destruct (Nat.eqb_spec (made s) j); [congruence|]. apply I. exact L.
    + apply I.
    + intros j t H. destruct (Lv j H) as [->|(n & L)]; [|rewrite M by exact n; apply I; exact L].
      rewrite upd_same. cbn [owner]. split; [discriminate|]. intros C. apply (i_made _ _ I) in C. lia.
    + apply I.
    + intros j H. destruct (Lv j H) as [->|(n & L)]; [|rewrite M by exact n; apply I; exact L]. rewrite upd_same. cbn [owner]. congruence.
    + intros j H. destruct (Lv j H) as [->|(n & L)]; [|rewrite M by exact n; apply I; exact L]. intros Q. apply (i_qm _ _ I) in Q. lia.
    + apply I.
    + intros t j E H. destruct (Lv j H) as [->|(n & L)]; [|rewrite M by exact n; apply (i_end _ _ I t); assumption].
      assert (C : job_of (pcs s t) = Some (made s)) by (rewrite E; reflexivity). apply (i_made _ _ I) in C. lia.
    + auto.
    + intros j H. apply (i_dm _ _ I) in H. lia.
    + intros j H. destruct (Lv j H) as [->|(n & L)]; [|rewrite M by exact n; apply I; exact L]. intros Q. apply (i_dm _ _ I) in Q. lia.
    + apply I.
  - split; [|rewrite <- (live_alive s h _ I); exact N].
    destruct (program h (made s)) eqn:E; [|reflexivity]. assert (C : program h (made s) <> None) by congruence. apply (i_prog _ _ I) in C. lia.
Qed.

(** A job changes in its flag [ref] only, and moves between the chains. *)
Lemma inv_suspend s h j : inv s h -> live s j ->
  inv (fst (suspend s j)) (snd (suspend s j) ++ h) /\ (lawful h -> lawful (snd (suspend s j) ++ h)).
Proof.
  intros I L. unfold suspend. destruct (ref (info s j)) eqn:R; cbn [fst snd app]; [auto|].
  assert (Q : In j (runq s)) by (destruct L as [L|L]; [exact L|apply (i_wait _ _ I) in L; congruence]).
  set (x := info s j) in *.
  set (x' := mkJ (prog x) true (quit x) (owner x)).
  assert (F : forall k, prog (upd (info s) j x' k) = prog (info s k) /\ quit (upd (info s) j x' k) = quit (info s k) /\ owner (upd (info s) j x' k) = owner (info s k)).
  { intros k. destruct (Nat.eq_dec k j) as [->|n]; [rewrite upd_same; auto|rewrite upd_other by exact n; auto]. }
  assert (Lv : forall k, In k (del j (runq s)) \/ In k (waitq s ++ [j]) -> live s k).
  { intros k. rewrite del_in, in_app_iff. cbn [In]. unfold live. intuition. subst. auto. }
  assert (Rf : forall k, ref (info s k) = true -> ref (upd (info s) j x' k) = true).
  { intros k. destruct (Nat.eq_dec k j) as [->|n]; [rewrite upd_same; auto|rewrite upd_other by exact n; auto]. }
  split.
  - constructor; unfold live; cbn [runq waitq info pcs flag made queue sleepers program done quitting inside turn paused overran].
    + rewrite (i_q _ _ I). reflexivity.
    + rewrite (i_w _ _ I). reflexivity.
    + intros k. rewrite del_in. intros (H & n). rewrite upd_other by exact n. apply I. exact H.
    + intros k. rewrite in_app_iff. intros [H|[<-|[]]]; [apply Rf, I; exact H|rewrite upd_same; reflexivity].
    + intros k H. apply I. apply Lv. exact H.
    + apply I.
    + apply I.
    + apply I.
    + apply I.
    + intros k H. destruct (F k) as (-> & -> & _). apply I. apply Lv. exact H.
    + apply I.
    + intros k t H. destruct (F k) as (_ & _ & ->). apply I. apply Lv. exact H.
    + intros t. pose proof (i_turn _ _ I t) as T. destruct (pcs s t) as [|a n|a n|a|a|]; try exact T.
      destruct T as [T|T]; [auto|]. right. destruct (j =? a); auto.
    + intros k H. destruct (Nat.eqb_spec j k) as [<-|n]; [reflexivity|]. rewrite upd_other by congruence. apply I. apply Lv. exact H.
    + intros k H K. destruct (F k) as (_ & -> & _). destruct (i_quit _ _ I k (Lv k H) K) as (A & [B|B]); auto.
    + apply I.
    + intros t k E H. destruct (F k) as (-> & -> & _). apply (i_end _ _ I t); auto.
    + intros H. apply (i_flag _ _ I). intros E. rewrite E in Q. exact Q.
    + apply I.
    + intros k H K. apply Rf. exact (i_dr _ _ I k (Lv k H) K).
    + apply I.
  - intros Lw. split; [|exact Lw]. cbn [legal]. rewrite <- (i_q _ _ I). exact Q.
Qed.

Lemma inv_continue s h j : inv s h -> live s j ->
  inv (fst (continue s j)) (snd (continue s j) ++ h) /\ (lawful h -> lawful (snd (continue s j) ++ h)).
Proof.
  intros I L. unfold continue. destruct (ref (info s j)) eqn:R; cbn [fst snd app]; [|auto].
  assert (Q : In j (waitq s)) by (destruct L as [L|L]; [apply (i_run _ _ I) in L; congruence|exact L]).
  set (x := info s j) in *.
  set (x' := mkJ (prog x) false (quit x) (owner x)).
  assert (F : forall k, prog (upd (info s) j x' k) = prog (info s k) /\ quit (upd (info s) j x' k) = quit (info s k) /\ owner (upd (info s) j x' k) = owner (info s k)).
  { intros k. destruct (Nat.eq_dec k j) as [->|n]; [rewrite upd_same; auto|rewrite upd_other by exact n; auto]. }
  assert (Lv : forall k, In k (runq s ++ [j]) \/ In k (del j (waitq s)) -> live s k).
  { intros k. rewrite del_in, in_app_iff. cbn [In]. unfold live. intuition. subst. auto. }
  split.
  - constructor; unfold live; cbn [runq waitq info pcs flag made queue sleepers program done quitting inside turn paused overran].
    + rewrite (i_q _ _ I). reflexivity.
    + rewrite (i_w _ _ I). reflexivity.
    + intros k. rewrite in_app_iff. intros [H|[<-|[]]]; [|rewrite upd_same; reflexivity].
      destruct (Nat.eq_dec k j) as [->|n]; [rewrite upd_same; reflexivity|]. rewrite upd_other by exact n. apply I. exact H.
    + intros k. rewrite del_in. intros (H & n). rewrite upd_other by exact n. apply I. exact H.
    + intros k H. apply I. apply Lv. exact H.
    + apply I.
    + apply I.
    + intros k. destruct (Nat.eqb_spec j k); [discriminate|]. apply I.
    + apply I.
    + intros k H. destruct (F k) as (-> & -> & _). apply I. apply Lv. exact H.
    + apply I.
    + intros k t H. destruct (F k) as (_ & _ & ->). apply I. apply Lv. exact H.
    + apply I.
    + intros k H. destruct (Nat.eq_dec k j) as [->|n]; [rewrite upd_same; cbn [ref x']; congruence|]. rewrite upd_other by exact n. apply I. apply Lv. exact H.
    + intros k H. destruct (Nat.eqb_spec j k) as [<-|n]; [discriminate|]. rewrite upd_other by congruence. apply I. apply Lv. exact H.
    + intros t k n E. destruct (j =? k); [reflexivity|]. apply (i_in _ _ I t k n). exact E.
    + intros t k E H. destruct (F k) as (-> & -> & _). apply (i_end _ _ I t); auto.
    + auto.
    + intros k. destruct (Nat.eqb_spec j k); [discriminate|]. apply I.
    + intros k H. destruct (Nat.eqb_spec j k) as [<-|n]; [discriminate|]. rewrite upd_other by congruence. apply I. apply Lv. exact H.
    + intros t k n E. destruct (j =? k); [reflexivity|]. apply (i_di _ _ I t k n). exact E.
  - intros Lw. split; [|exact Lw]. cbn [legal]. rewrite <- (i_w _ _ I). exact Q.
Qed.

Lemma free_chains s h j : inv s h -> live s j ->
  runq (job_free s j) = without j (queue h) /\ waitq (job_free s j) = without j (sleepers h).
Proof.
  intros I L. unfold job_free. cbn [runq waitq]. rewrite <- (i_q _ _ I), <- (i_w _ _ I). change without with del.
  destruct (ref (info s j)) eqn:R; split; try reflexivity; symmetry; apply del_out; intros C;
    [apply (i_run _ _ I) in C|apply (i_wait _ _ I) in C]; congruence.
Qed.

(** A job is freed: nobody may be in its turn afterwards, or somebody will be surprised. *)
Lemma inv_free s h j e ps : inv s h -> live s j ->
  (e = Killed j /\ ps = pcs s) \/ (exists t, e = Returned t j /\ ps = upd (pcs s) t Last /\ pcs s t = Ended j) ->
  inv (mkS (runq (job_free s j)) (waitq (job_free s j)) (info s) ps (flag (job_free s j)) (made s)) (e :: h).
Proof.
  intros I L He. destruct (free_chains s h j I L) as (Eq & Ew).
  assert (Lv : forall k, In k (runq (job_free s j)) \/ In k (waitq (job_free s j)) -> live s k /\ k <> j).
  { intros k. rewrite Eq, Ew, <- (i_q _ _ I), <- (i_w _ _ I). change without with del. rewrite !del_in. unfold live. tauto. }
  assert (Hq : queue (e :: h) = without j (queue h)) by (destruct He as [(-> & _)|(t & -> & _)]; reflexivity).
  assert (Hw : sleepers (e :: h) = without j (sleepers h)) by (destruct He as [(-> & _)|(t & -> & _)]; reflexivity).
  assert (Hp : program (e :: h) = program h) by (destruct He as [(-> & _)|(t & -> & _)]; reflexivity).
  assert (Hd : done (e :: h) = done h) by (destruct He as [(-> & _)|(t & -> & _)]; reflexivity).
  assert (Hx : quitting (e :: h) = quitting h) by (destruct He as [(-> & _)|(t & -> & _)]; reflexivity).
  assert (Hz : overran (e :: h) = overran h) by (destruct He as [(-> & _)|(t & -> & _)]; reflexivity).
  assert (Hy : paused (e :: h) = paused h) by (destruct He as [(-> & _)|(t & -> & _)]; reflexivity).
  assert (Ht : turn (e :: h) = turn h) by (destruct He as [(-> & _)|(t & -> & _)]; reflexivity).
  assert (Hps : forall u, (ps u = pcs s u /\ inside (e :: h) u = inside h u) \/ (ps u = Last /\ inside (e :: h) u = None /\ pcs s u = Ended j)).
  { intros u. destruct He as [(-> & ->)|(t & -> & -> & E)]; [auto|]. cbn [inside].
    destruct (Nat.eqb_spec t u) as [<-|n]; [rewrite upd_same; auto|rewrite upd_other by congruence; auto]. }
  constructor; unfold live; cbn [runq waitq info pcs flag made]; rewrite ?Hq, ?Hw, ?Hp, ?Hd, ?Hx, ?Hy, ?Hz, ?Ht.
  - exact Eq.
  - exact Ew.
  - intros k H. apply I. change without with del in Eq. rewrite Eq, <- (i_q _ _ I), del_in in H. apply H.
  - intros k H. apply I. change without with del in Ew. rewrite Ew, <- (i_w _ _ I), del_in in H. apply H.
  - intros k H. apply I. apply Lv. exact H.
  - apply I.
  - apply I.
  - apply I.
  - intros u k. destruct (Hps u) as [(-> & _)|(-> & _)]; [apply I|discriminate].
  - intros k H. apply I. apply Lv. exact H.
  - intros u. destruct (Hps u) as [(-> & ->)|(-> & -> & _)]; [apply I|reflexivity].
  - intros k u H. apply Lv in H. destruct H as (H & n). destruct (Hps u) as [(-> & _)|(-> & _ & E)]; [apply I; exact H|].
    cbn [job_of]. rewrite (i_own _ _ I k u H), E. cbn [job_of]. split; congruence.
  - intros u. destruct (Hps u) as [(-> & _)|(-> & _)]; [apply I|exact Logic.I].
  - intros k H. apply I. apply Lv. exact H.
  - intros k H K. apply Lv in H. destruct H as (H & n). destruct (i_quit _ _ I k H K) as (A & [B|(u & B)]); split; auto.
    right. exists u. destruct (Hps u) as [(-> & _)|(_ & _ & E)]; [exact B|]. rewrite E in B. destruct B as [(m & B)|B]; congruence.
  - intros u k n. destruct (Hps u) as [(-> & _)|(-> & _)]; [apply I|discriminate].
  - intros u k. destruct (Hps u) as [(-> & _)|(-> & _)]; [|discriminate]. intros E H. apply (i_end _ _ I u); [exact E|]. apply Lv. exact H.
  - intros H. left. unfold job_free in *. cbn [runq flag] in *. apply nonempty_true. exact H.
  - apply I.
  - intros k H. apply I. apply Lv. exact H.
  - intros u k n. destruct (Hps u) as [(-> & _)|(-> & _)]; [apply I|discriminate].
Qed.

Lemma inv_call s h t : inv s h -> pcs s t = Out ->
  inv (fst (call s t)) (snd (call s t) ++ h) /\ (lawful h -> lawful (snd (call s t) ++ h)).
Proof.
  intros I Ht.
  assert (Cl : (runq s = [] \/ exists j l u, runq s = j :: l /\ owner (info s j) = Some u) -> inv (mkS (runq s) (waitq s) (info s) (pcs s) false (made s)) h).
  { intros C. constructor; cbn [runq waitq info pcs flag made]; try apply I.
    intros R. right. destruct C as [C|(j & l & u & E & O)]; [congruence|].
    assert (L : live s j) by (left; rewrite E; left; reflexivity). apply (i_own _ _ I j u L) in O. exists u. intros K. rewrite K in O. discriminate O. }
  unfold call. destruct (runq s) as [|j l] eqn:E; [cbn [fst snd app]; auto|].
  destruct (owner (info s j)) as [u|] eqn:O; [cbn [fst snd app]; split; [apply Cl; eauto 10|auto]|].
  assert (Q : In j (runq s)) by (rewrite E; left; reflexivity).
  assert (L : live s j) by (left; exact Q).
  cbn [fst snd app]. rewrite <- E. set (x := info s j) in *. set (x' := mkJ (prog x) (ref x) (quit x) (Some t)).
  assert (F : forall k, prog (upd (info s) j x' k) = prog (info s k) /\ quit (upd (info s) j x' k) = quit (info s k) /\ ref (upd (info s) j x' k) = ref (info s k)).
  { intros k. destruct (Nat.eq_dec k j) as [->|n]; [rewrite upd_same; auto|rewrite upd_other by exact n; auto]. }
  assert (Lq : forall k, In k (del j (runq s) ++ [j]) -> In k (runq s)).
  { intros k. rewrite in_app_iff, del_in. cbn [In]. intuition. subst. exact Q. }
  assert (Lv : forall k, In k (del j (runq s) ++ [j]) \/ In k (waitq s) -> live s k).
  { intros k [H|H]; [left; apply Lq; exact H|right; exact H]. }
  assert (No : forall u, job_of (pcs s u) <> Some j) by (intros u C; apply (i_own _ _ I j u L) in C; fold x in C; congruence).
  assert (Qj : quitting h j = false).
  { destruct (quitting h j) eqn:K; [|reflexivity]. destruct (i_quit _ _ I j L K) as (_ & [B|(u & B)]).
    - rewrite (i_run _ _ I j Q) in B. discriminate B.
    - exfalso. apply (No u). destruct B as [(n & B)|B]; rewrite B; reflexivity. }
  split.
  - constructor; unfold live; cbn [at_ with_job runq waitq info pcs flag made queue sleepers program done quitting inside turn paused overran].
    + rewrite (i_q _ _ I). reflexivity.
    + apply I.
    + intros k H. destruct (F k) as (_ & _ & ->). apply I. apply Lq. exact H.
    + intros k H. destruct (F k) as (_ & _ & ->). apply I. exact H.
    + intros k H. apply I. apply Lv. exact H.
    + apply I.
    + apply I.
    + apply I.
    + intros u k. destruct (Nat.eq_dec u t) as [->|n]; [rewrite upd_same|rewrite upd_other by exact n; apply I].
      cbn [job_of]. intros [= <-]. apply I. exact L.
    + intros k H. destruct (F k) as (-> & -> & _). apply I. apply Lv. exact H.
    + intros u. destruct (Nat.eqb_spec t u) as [<-|n]; [rewrite upd_same; reflexivity|rewrite upd_other by congruence; apply I].
    + intros k u H. apply Lv in H. destruct (Nat.eq_dec k j) as [->|n].
      * rewrite upd_same. cbn [owner x']. destruct (Nat.eq_dec u t) as [->|m]; [rewrite upd_same; cbn [job_of]; tauto|].
        rewrite upd_other by exact m. split; [congruence|]. intros C. destruct (No u C).
      * rewrite (upd_other (info s)) by exact n. rewrite (i_own _ _ I k u H).
        destruct (Nat.eq_dec u t) as [->|m]; [|rewrite upd_other by exact m; reflexivity].
        rewrite upd_same, Ht. cbn [job_of]. split; congruence.
    + intros u. destruct (Nat.eqb_spec t u) as [<-|n]; [rewrite upd_same; split; [reflexivity|lia]|].
      rewrite upd_other by congruence. pose proof (i_turn _ _ I u) as T. destruct (pcs s u) as [|a m|a m|a|a|] eqn:Ep; try exact T.
      destruct (Nat.eqb_spec j a) as [<-|m]; [|exact T]. exfalso. apply (No u). rewrite Ep. reflexivity.
    + intros k H. destruct (F k) as (_ & _ & ->). destruct (Nat.eqb_spec j k) as [<-|n].
      * rewrite (i_run _ _ I j Q). discriminate.
      * rewrite upd_other by congruence. apply I. apply Lv. exact H.
    + intros k H K. apply Lv in H. destruct (F k) as (_ & -> & ->). destruct (i_quit _ _ I k H K) as (A & [B|(u & B)]); split; auto.
      right. exists u. destruct (Nat.eq_dec u t) as [->|m]; [rewrite Ht in B; destruct B as [(m & B)|B]; discriminate B|]. rewrite upd_other by exact m. exact B.
    + intros u k n. destruct (Nat.eq_dec u t) as [->|m]; [rewrite upd_same; congruence|rewrite upd_other by exact m; apply I].
    + intros u k. destruct (Nat.eq_dec u t) as [->|m]; [rewrite upd_same; discriminate|rewrite upd_other by exact m].
      intros Ep H. destruct (F k) as (-> & -> & _). apply (i_end _ _ I u); auto.
    + intros _. right. exists t. rewrite upd_same. discriminate.
    + apply I.
    + intros k H. destruct (F k) as (_ & _ & ->). apply I. apply Lv. exact H.
    + intros u k n. destruct (Nat.eq_dec u t) as [->|m]; [rewrite upd_same|rewrite upd_other by exact m; apply I]. intros [= <- _].
      destruct (overran h j) eqn:K; [|reflexivity]. pose proof (i_dr _ _ I j L K) as B. rewrite (i_run _ _ I j Q) in B. discriminate B.
  - intros Lw. split; [|exact Lw]. cbn [legal]. split; [exists l; rewrite <- (i_q _ _ I); exact E|].
    split; [rewrite (i_pc _ _ I), Ht; reflexivity|]. intros u. rewrite (i_pc _ _ I). apply No.
Qed.

Lemma inv_ran s h t j n a p : inv s h -> pcs s t = In_ j n -> live s j -> n < 1700 -> prog (info s j) = a :: p ->
  inv (at_ (with_job s j (mkJ p (ref (info s j)) (quit (info s j) || quits a) (owner (info s j)))) t (Check j n)) (Ran t j a :: h) /\ legal h (Ran t j a).
Proof.
  intros I Ht L Hn Hp. set (x := info s j) in *. set (x' := mkJ p (ref x) (quit x || quits a) (owner x)).
  assert (F : forall k, owner (upd (info s) j x' k) = owner (info s k) /\ ref (upd (info s) j x' k) = ref (info s k)).
  { intros k. destruct (Nat.eq_dec k j) as [->|m]; [rewrite upd_same; auto|rewrite upd_other by exact m; auto]. }
  assert (J : forall u, job_of (upd (pcs s) t (Check j n) u) = job_of (pcs s u)).
  { intros u. destruct (Nat.eq_dec u t) as [->|m]; [rewrite upd_same, Ht; reflexivity|rewrite upd_other by exact m; reflexivity]. }
  assert (Me : forall u, u <> t -> job_of (pcs s u) <> Some j).
  { intros u m C. apply (i_own _ _ I j u L) in C. assert (D : job_of (pcs s t) = Some j) by (rewrite Ht; reflexivity). apply (i_own _ _ I j t L) in D. congruence. }
  destruct (i_info _ _ I j L) as (Pj & Kj). fold x in Pj, Kj. rewrite Hp in Pj.
  assert (Qj : quitting h j = false) by (apply (i_in _ _ I t j n); exact Ht).
  pose proof (i_turn _ _ I t) as T. rewrite Ht in T. destruct T as (T & _).
  split.
  - constructor; unfold live; cbn [at_ with_job runq waitq info pcs flag made queue sleepers program done quitting inside turn paused overran].
    + apply I.
    + apply I.
    + intros k. destruct (F k) as (_ & ->). apply I.
    + intros k. destruct (F k) as (_ & ->). apply I.
    + apply I.
    + apply I.
    + intros k. destruct (Nat.eqb_spec j k) as [<-|m]; [intros _; apply I; exact L|apply I].
    + intros k. destruct (Nat.eqb_spec j k) as [<-|m]; cbn [andb]; [intros _; apply I; exact L|apply I].
    + intros u k. rewrite J. apply I.
    + intros k H. destruct (Nat.eqb_spec j k) as [<-|m].
      * rewrite upd_same. cbn [prog quit x']. rewrite Pj, <- app_assoc, existsb_app, Kj. cbn [app existsb]. rewrite orb_false_r. split; reflexivity.
      * rewrite upd_other by congruence. apply I. exact H.
    + intros u. rewrite J. apply I.
    + intros k u H. rewrite J. destruct (F k) as (-> & _). apply I. exact H.
    + intros u. destruct (Nat.eqb_spec t u) as [<-|m]; [rewrite upd_same; split; [congruence|exact Hn]|].
      rewrite upd_other by congruence. apply (i_turn _ _ I u).
    + intros k H. destruct (F k) as (-> & ->). apply I. exact H.
    + intros k H K. destruct (Nat.eqb_spec j k) as [<-|m]; cbn [andb] in K.
      * rewrite upd_same. cbn [quit ref x']. rewrite Qj in K. destruct (quits a); [|discriminate K]. rewrite orb_true_r. split; [reflexivity|].
        right. exists t. rewrite upd_same. eauto.
      * rewrite upd_other by congruence. destruct (i_quit _ _ I k H K) as (A & [B|(u & B)]); split; auto.
        right. exists u. destruct (Nat.eq_dec u t) as [->|v]; [rewrite Ht in B; destruct B as [(v & B)|B]; discriminate B|]. rewrite upd_other by exact v. exact B.
    + intros u k v. destruct (Nat.eq_dec u t) as [->|m]; [rewrite upd_same; discriminate|]. rewrite upd_other by exact m. intros Ep.
      destruct (Nat.eqb_spec j k) as [<-|w]; [destruct (Me u m); rewrite Ep; reflexivity|]. cbn [andb]. apply (i_in _ _ I u k v). exact Ep.
    + intros u k. destruct (Nat.eq_dec u t) as [->|m]; [rewrite upd_same; discriminate|]. rewrite upd_other by exact m. intros Ep H.
      destruct (Nat.eq_dec k j) as [->|w]; [destruct (Me u m); rewrite Ep; reflexivity|]. rewrite upd_other by exact w. apply (i_end _ _ I u); assumption.
    + intros _. right. exists t. rewrite upd_same. discriminate.
    + intros k. destruct (Nat.eqb_spec j k) as [<-|m]; cbn [andb]; [intros _; apply I; exact L|apply I].
    + intros k H. destruct (F k) as (_ & ->). destruct (Nat.eqb_spec j k) as [<-|m]; cbn [andb]; [|apply I; exact H].
      destruct (existsb (Nat.eqb j) (sleepers h)) eqn:Z; [|apply I; exact H]. intros _. apply existsb_exists in Z. destruct Z as (z & Z & Ez).
      apply Nat.eqb_eq in Ez. subst z. apply (i_wait _ _ I). rewrite (i_w _ _ I). exact Z.
    + intros u k v. destruct (Nat.eq_dec u t) as [->|m]; [rewrite upd_same; discriminate|]. rewrite upd_other by exact m. intros Ep.
      destruct (Nat.eqb_spec j k) as [<-|q]; [destruct (Me u m); rewrite Ep; reflexivity|]. cbn [andb]. apply (i_di _ _ I u k v). exact Ep.
  - cbn [legal]. split; [rewrite (i_pc _ _ I), Ht; reflexivity|]. split; [apply (live_alive s h j I); exact L|].
    split; [lia|]. split; [exact Qj|]. split; [apply (i_di _ _ I t j n); exact Ht|]. exists p. exact Pj.
Qed.

Lemma inv_leave s h t j : inv s h -> pcs s t = Leave j -> live s j ->
  inv (wake (at_ (with_job s j (mkJ (prog (info s j)) (ref (info s j)) (quit (info s j)) None)) t Out)) (Exit t j :: h) /\ legal h (Exit t j).
Proof.
  intros I Ht L. set (x := info s j) in *. set (x' := mkJ (prog x) (ref x) (quit x) None).
  assert (F : forall k, prog (upd (info s) j x' k) = prog (info s k) /\ quit (upd (info s) j x' k) = quit (info s k) /\ ref (upd (info s) j x' k) = ref (info s k)).
  { intros k. destruct (Nat.eq_dec k j) as [->|m]; [rewrite upd_same; auto|rewrite upd_other by exact m; auto]. }
  assert (Me : forall u, u <> t -> job_of (pcs s u) <> Some j).
  { intros u m C. apply (i_own _ _ I j u L) in C. assert (D : job_of (pcs s t) = Some j) by (rewrite Ht; reflexivity). apply (i_own _ _ I j t L) in D. congruence. }
  split.
  - constructor; unfold live; cbn [wake at_ with_job runq waitq info pcs flag made queue sleepers program done quitting inside turn paused overran]; try apply I.
    + intros k. destruct (F k) as (_ & _ & ->). apply I.
    + intros k. destruct (F k) as (_ & _ & ->). apply I.
    + intros u k. destruct (Nat.eq_dec u t) as [->|m]; [rewrite upd_same; discriminate|rewrite upd_other by exact m; apply I].
    + intros k H. destruct (F k) as (-> & -> & _). apply I. exact H.
    + intros u. destruct (Nat.eqb_spec t u) as [<-|m]; [rewrite upd_same; reflexivity|rewrite upd_other by congruence; apply I].
    + intros k u H. destruct (Nat.eq_dec k j) as [->|n].
      * rewrite upd_same. cbn [owner x']. split; [discriminate|]. destruct (Nat.eq_dec u t) as [->|m]; [rewrite upd_same; discriminate|].
        rewrite upd_other by exact m. intros C. destruct (Me u m C).
      * rewrite (upd_other (info s)) by exact n. rewrite (i_own _ _ I k u H).
        destruct (Nat.eq_dec u t) as [->|m]; [|rewrite upd_other by exact m; reflexivity]. rewrite upd_same, Ht. cbn [job_of]. split; congruence.
    + intros u. destruct (Nat.eq_dec u t) as [->|m]; [rewrite upd_same; exact Logic.I|rewrite upd_other by exact m; apply (i_turn _ _ I u)].
    + intros k H. destruct (Nat.eq_dec k j) as [->|n]; [rewrite upd_same; cbn [owner x']; congruence|]. rewrite upd_other by exact n. apply I. exact H.
    + intros k H K. destruct (F k) as (_ & -> & ->). destruct (i_quit _ _ I k H K) as (A & [B|(u & B)]); split; auto.
      right. exists u. destruct (Nat.eq_dec u t) as [->|m]; [rewrite Ht in B; destruct B as [(m & B)|B]; discriminate B|]. rewrite upd_other by exact m. exact B.
    + intros u k n. destruct (Nat.eq_dec u t) as [->|m]; [rewrite upd_same; discriminate|rewrite upd_other by exact m; apply I].
    + intros u k. destruct (Nat.eq_dec u t) as [->|m]; [rewrite upd_same; discriminate|rewrite upd_other by exact m].
      intros Ep H. destruct (F k) as (-> & -> & _). apply (i_end _ _ I u); assumption.
    + intros R. left. apply nonempty_true in R. rewrite R. reflexivity.
    + intros k H. destruct (F k) as (_ & _ & ->). apply I. exact H.
    + intros u k n. destruct (Nat.eq_dec u t) as [->|m]; [rewrite upd_same; discriminate|rewrite upd_other by exact m; apply I].
  - cbn [legal]. split; [rewrite (i_pc _ _ I), Ht; reflexivity|]. split; [apply (live_alive s h j I); exact L|].
    pose proof (i_turn _ _ I t) as T. rewrite Ht in T. exact T.
Qed.

Lemma inv_last s h t : inv s h -> pcs s t = Last -> inv (wake (at_ s t Out)) h.
Proof.
  intros I Ht.
  assert (J : forall u, job_of (upd (pcs s) t Out u) = job_of (pcs s u)).
  { intros u. destruct (Nat.eq_dec u t) as [->|m]; [rewrite upd_same, Ht; reflexivity|rewrite upd_other by exact m; reflexivity]. }
  constructor; unfold live; cbn [wake at_ runq waitq info pcs flag made]; try apply I.
  - intros u j. rewrite J. apply I.
  - intros u. rewrite J. apply I.
  - intros j u L. rewrite J. apply I. exact L.
  - intros u. destruct (Nat.eq_dec u t) as [->|n]; [rewrite upd_same; exact Logic.I|rewrite upd_other by exact n; apply I].
  - intros j L Q. destruct (i_quit _ _ I j L Q) as (A & [B|(u & B)]); split; auto.
    right. exists u. destruct (Nat.eq_dec u t) as [->|n]; [rewrite Ht in B; destruct B as [(n & B)|B]; discriminate B|]. rewrite upd_other by exact n. exact B.
  - intros u j n. destruct (Nat.eq_dec u t) as [->|m]; [rewrite upd_same; discriminate|rewrite upd_other by exact m; apply I].
  - intros u j. destruct (Nat.eq_dec u t) as [->|m]; [rewrite upd_same; discriminate|rewrite upd_other by exact m; apply I].
  - intros R. left. apply nonempty_true in R. rewrite R. reflexivity.
  - intros u j n. destruct (Nat.eq_dec u t) as [->|m]; [rewrite upd_same; discriminate|rewrite upd_other by exact m; apply I].
Qed.

Lemma inv_step s h o s' e : inv s h -> step s o = Ok (s', e) -> inv s' (e ++ h) /\ (lawful h -> lawful (e ++ h)).
Proof.
  intros I. destruct o as [p ok|j|j|j|t|t]; cbn [step].
  - unfold job_new. destruct ok; intros [= <- <-]; cbn [app]; [|auto]. destruct (inv_new s h p I) as (A & B). split; [exact A|]. intros Lw. split; assumption.
  - destruct (held s j) eqn:H; [|discriminate]. apply held_live in H. intros [= E]. pose proof (inv_suspend s h j I H) as X. rewrite E in X. exact X.
  - destruct (held s j) eqn:H; [|discriminate]. apply held_live in H. intros [= E]. pose proof (inv_continue s h j I H) as X. rewrite E in X. exact X.
  - destruct (held s j) eqn:H; [|discriminate]. apply held_live in H. intros [= <- <-]. cbn [app]. split.
    + apply (inv_free s h j (Killed j) (pcs s) I H). left. auto.
    + intros Lw. split; [|exact Lw]. apply (live_alive s h j I). exact H.
  - destruct (pcs s t) eqn:Ht; intros [= E]; try (intros; subst; cbn [app]; auto).
    all: try (pose proof (inv_call s h t I Ht) as X; rewrite E in X; exact X).
  - unfold go. destruct (pcs s t) as [|j n|j n|j|j|] eqn:Ht.
    + intros [= <- <-]. auto.
    + destruct (held s j) eqn:H; [|discriminate]. apply held_live in H. pose proof (i_turn _ _ I t) as T. rewrite Ht in T.
      destruct (Nat.ltb_spec n 1700) as [Hn|Hn].
      * destruct (prog (info s j)) as [|a p] eqn:Hp.
        -- intros [= <- <-]. cbn [app]. split; [|auto].
           apply inv_move; auto; try (rewrite Ht; (discriminate || reflexivity)); try discriminate; try (intros; congruence). 
        -- destruct (inv_ran s h t j n a p I Ht H Hn Hp) as (A & B).
           destruct (sleeps a); [|intros [= <- <-]; cbn [app]; split; [exact A|intros Lw; split; assumption]].
           set (s1 := with_job s j (mkJ p (ref (info s j)) (quit (info s j) || quits a) (owner (info s j)))) in *.
           assert (C : suspend (at_ s1 t (Check j n)) j = (at_ (fst (suspend s1 j)) t (Check j n), snd (suspend s1 j))).
           { unfold suspend. cbn [at_ info]. destruct (ref (info s1 j)); reflexivity. }
           destruct (suspend s1 j) as (s2, e2) eqn:E2. intros [= <- <-]. cbn [fst snd] in C.
           assert (L2 : live (at_ s1 t (Check j n)) j) by exact H.
           pose proof (inv_suspend _ _ j A L2) as (X & Y). rewrite C in X, Y. cbn [fst snd] in X, Y. rewrite <- app_assoc. cbn [app].
           split; [exact X|]. intros Lw. apply Y. split; assumption.
      * intros [= <- <-]. cbn [app]. split; [|auto].
        apply inv_move; auto; try (rewrite Ht; (discriminate || reflexivity)); try discriminate; try (intros; congruence). left. lia.
    + destruct (held s j) eqn:H; [|discriminate]. apply held_live in H. pose proof (i_turn _ _ I t) as T. rewrite Ht in T.
      assert (O : owner (info s j) = Some t) by (apply (i_own _ _ I j t H); rewrite Ht; reflexivity).
      destruct (ref (info s j)) eqn:R; [|destruct (quit (info s j)) eqn:K]; intros [= <- <-]; cbn [app]; (split; [|auto]); apply inv_move; auto; try discriminate;
        try (rewrite Ht; (discriminate || reflexivity)); try (rewrite Ht; intros; congruence).
      * right. apply I; congruence.
      * rewrite Ht. intros ? ? [= <- <-]. auto.
      * rewrite Ht. intros ? ? [= <- <-]. auto.
      * split; [apply T|]. split; [lia|]. split.
        -- destruct (quitting h j) eqn:Q; [|reflexivity]. destruct (i_quit _ _ I j H Q). congruence.
        -- destruct (overran h j) eqn:Q; [|reflexivity]. rewrite (i_dr _ _ I j H Q) in R. discriminate R.
      * rewrite Ht. intros ? ? [= <- <-] _ Q. destruct (i_quit _ _ I j H Q). congruence.
    + destruct (held s j) eqn:H; [|discriminate]. apply held_live in H. intros [= <- <-]. cbn [app].
      destruct (inv_leave s h t j I Ht H) as (A & B). split; [exact A|]. intros Lw. split; assumption.
    + destruct (held s j) eqn:H; [|discriminate]. apply held_live in H. intros [= <- <-]. cbn [app]. split.
      * apply (inv_free s h j (Returned t j) (upd (pcs s) t Last) I H). right. exists t. auto.
      * intros Lw. split; [|exact Lw]. cbn [legal]. split; [rewrite (i_pc _ _ I), Ht; reflexivity|]. split; [apply (live_alive s h j I); exact H|].
        destruct (i_info _ _ I j H) as (P & K). destruct (i_end _ _ I t j Ht H) as [E|E]; [left; rewrite P, E, app_nil_r; reflexivity|right; congruence].
    + intros [= <- <-]. cbn [app]. split; [|auto]. apply inv_last; assumption.
Qed.

Lemma run_inv os : forall s h s' h', inv s h -> run s h os = Ok (s', h') -> inv s' h' /\ (lawful h -> lawful h').
Proof.
  induction os as [|o os IH]; intros s h s' h' I; cbn [run]; [intros [= <- <-]; auto|].
  destruct (step s o) as [(s1, e)|] eqn:E; [|discriminate]. destruct (inv_step s h o s1 e I E) as (I1 & L1). intros R.
  destruct (IH _ _ _ _ I1 R) as (I2 & L2). split; auto.
Qed.

(** From the law alone: a thread is in a turn of a job that was not freed, and no two threads in a turn of the same. *)
Lemma inside_alive h : lawful h -> careful h ->
  (forall t j, inside h t = Some j -> alive h j) /\ (forall t u j, inside h t = Some j -> inside h u = Some j -> t = u).
Proof.
  unfold alive. induction h as [|e h IH]; cbn [lawful]; [split; discriminate|]. intros (G & Lw) Ca.
  assert (Ca' : careful h) by (destruct e; cbn [careful] in Ca; tauto). destruct (IH Lw Ca') as (A & U). clear IH.
  assert (W : forall x j l, In x (without j l) <-> In x l /\ x <> j) by (intros; apply del_in).
  destruct e as [j p|t j|t j|t j a|t j|j|j|j]; cbn [inside queue sleepers legal careful] in *.
  - split; [|exact U]. intros t i E. destruct (A t i E); rewrite ?in_app_iff; auto.
  - destruct G as ((l & Q) & N & M). split.
    + intros u i. rewrite in_app_iff, W. cbn [In]. destruct (Nat.eqb_spec t u) as [<-|n]; [intros [= <-]; auto|]. intros E.
      destruct (A u i E); [|auto]. destruct (Nat.eq_dec i j); subst; auto.
    + intros u v i. destruct (Nat.eqb_spec t u) as [<-|n], (Nat.eqb_spec t v) as [<-|m]; auto; try apply U.
      * intros [= <-] C. destruct (M v C).
      * intros C [= <-]. destruct (M u C).
  - split; intros u; [|intros v]; intros i; destruct (t =? u); try discriminate; [apply A|]. destruct (t =? v); [discriminate|apply U].
  - split; assumption.
  - destruct G as (Et & _ & _). split.
    + intros u i. destruct (Nat.eqb_spec t u) as [<-|n]; [discriminate|]. intros E. rewrite !W.
      assert (i <> j) by (intros ->; apply n; apply (U t u j); assumption). destruct (A u i E); auto.
    + intros u v i. destruct (t =? u), (t =? v); try discriminate. apply U.
  - split; [|exact U]. intros u i E. rewrite W, in_app_iff. cbn [In]. destruct (Nat.eq_dec i j); [subst; auto|]. destruct (A u i E); auto.
  - split; [|exact U]. intros u i E. rewrite W, in_app_iff. cbn [In]. destruct (Nat.eq_dec i j); [subst; auto|]. destruct (A u i E); auto.
  - split; [|exact U]. intros u i E. rewrite !W. destruct Ca as (N & _). assert (i <> j) by (intros ->; destruct (N u E)). destruct (A u i E); auto.
Qed.

Lemma step_ok s h o : inv s h -> lawful h -> careful h -> sensible h o -> exists s' e, step s o = Ok (s', e).
Proof.
  intros I Lw Ca Se. destruct (inside_alive h Lw Ca) as (A & _).
  assert (Hd : forall j, alive h j -> held s j = true) by (intros j H; apply held_live, (live_alive s h j I); exact H).
  destruct o as [p ok|j|j|j|t|t]; cbn [step sensible] in *.
  - destruct (job_new s p ok) as (a, b). eauto.
  - rewrite (Hd j Se). destruct (suspend s j) as (a, b). eauto.
  - rewrite (Hd j Se). destruct (continue s j) as (a, b). eauto.
  - rewrite (Hd j (proj1 Se)). eauto.
  - destruct (pcs s t); eauto. destruct (call s t) as (a, b). eauto.
  - specialize (A t). rewrite (i_pc _ _ I) in A. unfold go. destruct (pcs s t) as [|j n|j n|j|j|]; cbn [job_of] in A; eauto;
      rewrite (Hd j (A j eq_refl)); eauto.
    + destruct (n <? 1700); eauto. destruct (prog (info s j)) as [|a p]; eauto.
      destruct (sleeps a); eauto. destruct (suspend _ j) as (x, y). eauto.
    + destruct (ref (info s j)); eauto. destruct (quit (info s j)); eauto.
Qed.

(** How many jobs are before [j] *)
Fixpoint before (j : nat) (l : list nat) : nat := match l with [] => 0 | x :: l => if x =? j then 0 else S (before j l) end.
Lemma before_app j l m : In j l -> before j (l ++ m) = before j l.
Proof. induction l as [|x l IH]; intros H; [destruct H|]. cbn [app before]. destruct (Nat.eqb_spec x j); [reflexivity|]. rewrite IH; [reflexivity|]. destruct H; [congruence|assumption]. Qed.
Lemma before_without i j l : i <> j -> before j (without i l) <= before j l.
Proof.
  intros n. unfold without. induction l as [|x l IH]; [apply le_n|]. cbn [filter before].
  destruct (Nat.eqb_spec x i) as [->|m]; cbn [negb before]; [destruct (Nat.eqb_spec i j); [congruence|lia]|]. destruct (x =? j); lia.
Qed.
Lemma before_nth i j l : nth_error l i = Some j -> before j l <= i /\ In j l.
Proof.
  revert i. induction l as [|x l IH]; intros [|i]; cbn [nth_error before]; try discriminate.
  - intros [= ->]. rewrite Nat.eqb_refl. split; [lia|left; reflexivity].
  - intros E. destruct (IH i E). split; [destruct (x =? j); lia|right; assumption].
Qed.
Lemma fair j h0 : In j (queue h0) -> forall h, lawful (h ++ h0) -> forallb (fun e => negb (about j e)) h = true ->
  In j (queue (h ++ h0)) /\ turns h + before j (queue (h ++ h0)) <= before j (queue h0).
Proof.
  intros Q h. induction h as [|e h IH]; cbn [app lawful forallb]; [unfold turns; cbn [filter length]; auto|].
  intros (G & Lw) B. apply andb_true_iff in B. destruct B as (B0 & B). destruct (IH Lw B) as (J & T). clear IH.
  assert (W : forall i l, In j l -> i <> j -> In j (without i l)) by (intros i l H n; apply del_in; auto).
  unfold turns in *. destruct e as [i p|t i|t i|t i a|t i|i|i|i]; cbn [queue about filter length legal] in *;
    try (apply negb_true_iff, Nat.eqb_neq in B0); try (pose proof (before_without i j (queue (h ++ h0)) B0)); auto.
  - rewrite in_app_iff, before_app by exact J. auto.
  - destruct G as ((l & E) & _ & _). rewrite in_app_iff. rewrite before_app by (apply W; assumption). split; [left; apply W; assumption|].
    rewrite E in *. cbn [before] in *. unfold without. cbn [filter]. rewrite Nat.eqb_refl. cbn [negb].
    fold (without i l). pose proof (before_without i j l B0). destruct (Nat.eqb_spec i j); [congruence|]. lia.
  - split; [apply W; assumption|lia].
  - split; [apply W; assumption|lia].
  - rewrite in_app_iff, before_app by exact J. auto.
  - split; [apply W; assumption|lia].
Qed.

Lemma run_more os : forall s h s' h', run s h os = Ok (s', h') -> exists e, h' = e ++ h.
Proof.
  induction os as [|o os IH]; intros s h s' h'; cbn [run]; [intros [= <- <-]; exists []; reflexivity|].
  destruct (step s o) as [(s1, e)|]; [|discriminate]. intros R. destruct (IH _ _ _ _ R) as (e' & ->). exists (e' ++ e). apply app_assoc.
Qed.

(** A job that is gone does not come back. *)
Lemma gone j h0 : program h0 j <> None -> ~ alive h0 j -> forall h, lawful (h ++ h0) ->
  program (h ++ h0) j <> None /\ ~ alive (h ++ h0) j /\ (forall t a, ~ In (Ran t j a) h) /\ (forall t, ~ In (Enter t j) h) /\ (forall t, ~ In (Returned t j) h).
Proof.
  intros P A h. induction h as [|e h IH]; cbn [app lawful]; [repeat split; auto|].
  intros (G & Lw). destruct (IH Lw) as (P1 & A1 & R1 & E1 & T1). clear IH.
  assert (W : forall x i l, In x (without i l) <-> In x l /\ x <> i) by (intros; apply del_in).
  assert (X : program (e :: h ++ h0) j <> None).
  { destruct e as [i p|t i|t i|t i a|t i|i|i|i]; cbn [program]; try exact P1. destruct (i =? j); [discriminate|exact P1]. }
  assert (Y : ~ alive (e :: h ++ h0) j).
  { unfold alive in *. destruct e as [i p|t i|t i|t i a|t i|i|i|i]; cbn [queue sleepers legal] in *; rewrite ?in_app_iff, ?W; cbn [In].
    - intros [[C|[->|[]]]|C]; tauto.
    - destruct G as ((l & E) & _). intros [[C|[->|[]]]|C]; try tauto. apply A1. left. rewrite E. left. reflexivity.
    - tauto.
    - tauto.
    - tauto.
    - intros [C|[C|[->|[]]]]; tauto.
    - intros [[C|[->|[]]]|C]; tauto.
    - tauto. }
  split; [exact X|]. split; [exact Y|].
  split; [intros t a [->|C]; [apply A1, G|exact (R1 t a C)]|].
  split; [|intros t [->|C]; [apply A1, G|exact (T1 t C)]].
  intros t [->|C]; [|exact (E1 t C)]. destruct G as ((l & E) & _). apply A1. left. rewrite E. left. reflexivity.
Qed.

Lemma alive_program h j : lawful h -> alive h j -> program h j <> None.
Proof.
  unfold alive. assert (W : forall x i l, In x (without i l) <-> In x l /\ x <> i) by (intros; apply del_in).
  induction h as [|e h IH]; cbn [lawful]; [intros _ [C|C]; destruct C|]. intros (G & Lw). specialize (IH Lw).
  destruct e as [i p|t i|t i|t i a|t i|i|i|i]; cbn [queue sleepers legal program] in *; rewrite ?in_app_iff, ?W; cbn [In].
  - destruct (Nat.eqb_spec i j); [discriminate|]. intros [[C|[C|[]]]|C]; auto.
  - destruct G as ((l & E) & _). intros [[C|[->|[]]]|C]; try tauto. apply IH. left. rewrite E. left. reflexivity.
  - exact IH.
  - exact IH.
  - tauto.
  - intros [C|[C|[->|[]]]]; tauto.
  - intros [[C|[->|[]]]|C]; tauto.
  - tauto.
Qed.

(** A turn ends. *)
Definition left_ (p : pc) : nat :=
  match p with Out => 0 | In_ _ n => 2 * (1700 - n) + 2 | Check _ n => 2 * (1700 - n) + 1 | Leave _ => 1 | Ended _ => 2 | Last => 1 end.
Definition goes (t : nat) (o : op) : bool := match o with Go u => u =? t | _ => false end.
Definition calls (t : nat) (o : op) : bool := match o with Call u => u =? t | _ => false end.
Lemma left_step s h o s' e t : inv s h -> step s o = Ok (s', e) -> calls t o = false ->
  left_ (pcs s' t) <= (if goes t o then pred (left_ (pcs s t)) else left_ (pcs s t)).
Proof.
  intros I. destruct o as [p ok|j|j|j|u|u]; cbn [step calls goes].
  - unfold job_new. destruct ok; intros [= <- <-] _; apply le_n.
  - destruct (held s j); [|discriminate]. unfold suspend. destruct (ref (info s j)); intros [= <- <-] _; apply le_n.
  - destruct (held s j); [|discriminate]. unfold continue. destruct (ref (info s j)); intros [= <- <-] _; apply le_n.
  - destruct (held s j); [|discriminate]. intros [= <- <-] _. apply le_n.
  - intros E n. apply Nat.eqb_neq in n.
    destruct (pcs s u); try (injection E as <- <-; apply le_n).
    unfold call in E. destruct (runq s) as [|j l]; [injection E as <- <-; apply le_n|]. destruct (owner (info s j)); injection E as <- <-; [apply le_n|].
    cbn [at_ with_job pcs]. rewrite upd_other by congruence. apply le_n.
  - intros E _. pose proof (i_turn _ _ I u) as T.
    assert (X : forall p, pcs s' = upd (pcs s) u p -> left_ p <= pred (left_ (pcs s u)) -> left_ (pcs s' t) <= (if u =? t then pred (left_ (pcs s t)) else left_ (pcs s t))).
    { intros p -> Hl. destruct (Nat.eqb_spec u t) as [<-|n]; [rewrite upd_same; exact Hl|rewrite upd_other by congruence; apply le_n]. }
    unfold go in E. destruct (pcs s u) as [|j n|j n|j|j|] eqn:Hu.
    + injection E as <- <-. destruct (Nat.eqb_spec u t) as [<-|n]; [rewrite Hu|]; apply le_n.
    + destruct (held s j); [|discriminate]. destruct (Nat.ltb_spec n 1700).
      * destruct (prog (info s j)) as [|a p]; [injection E as <- <-; apply (X (Ended j)); [reflexivity|cbn [left_]; lia]|].
        assert (Y : pcs s' = upd (pcs s) u (Check j n)).
        { unfold suspend in E. destruct (sleeps a); [destruct (ref _)|]; injection E as <- <-; reflexivity. }
        apply (X _ Y). cbn [left_]. lia.
      * injection E as <- <-. apply (X (Leave j)); [reflexivity|cbn [left_]; lia].
    + destruct (held s j); [|discriminate]. destruct (ref (info s j)); [|destruct (quit (info s j))]; injection E as <- <-.
      * apply (X (Leave j)); [reflexivity|cbn [left_]; lia].
      * apply (X (Ended j)); [reflexivity|cbn [left_]; lia].
      * apply (X (In_ j (S n))); [reflexivity|cbn [left_]; lia].
    + destruct (held s j); [|discriminate]. injection E as <- <-. apply (X Out); [reflexivity|cbn [left_]; lia].
    + destruct (held s j); [|discriminate]. injection E as <- <-. apply (X Last); [reflexivity|cbn [left_]; lia].
    + injection E as <- <-. apply (X Out); [reflexivity|cbn [left_]; lia].
Qed.
Lemma left_run t os : forall s h s' h', inv s h -> run s h os = Ok (s', h') -> existsb (calls t) os = false ->
  left_ (pcs s' t) <= left_ (pcs s t) - length (filter (goes t) os).
Proof.
  induction os as [|o os IH]; intros s h s' h' I; cbn [run existsb filter length]; [intros [= <- <-] _; lia|].
  destruct (step s o) as [(s1, e)|] eqn:E; [|discriminate]. intros R C. apply orb_false_iff in C. destruct C as (C0 & C).
  pose proof (left_step s h o s1 e t I E C0) as L. destruct (inv_step s h o s1 e I E) as (I1 & _). specialize (IH _ _ _ _ I1 R C).
  destruct (goes t o); cbn [length]; lia.
Qed.
Lemma left_bound s h t : inv s h -> left_ (pcs s t) <= 3402.
Proof. intros I. destruct (pcs s t); cbn [left_]; lia. Qed.
Lemma left_out p : left_ p = 0 -> p = Out.
Proof. destruct p; cbn [left_]; intros H; try reflexivity; lia. Qed.

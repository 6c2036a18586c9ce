Require Import Verif.Base Verif.QueueModel Verif.QueueSpec.
Require Import List Arith NArith Lia Bool.
Require Import ZifyBool ZifyNat ZifyN.
Import ListNotations.

Section Proofs.
Variable V : Type.
Variable null : V.
Implicit Types (q : queue V) (l : list V).

Definition wrap (cap p : nat) : nat := if cap <=? p then p - cap else p.

(** Ring contents without the tail. *)
Definition Rc (cap : nat) q l : Prop :=
  qlen q = cap /\ length (slots q) = cap /\ nr q = length l /\ nr q <= cap /\
  (0 < cap -> qhead q < cap) /\
  forall i, i < nr q -> nth_error (slots q) (wrap cap (qhead q + i)) = nth_error l i.

Definition R (cap : nat) q l : Prop :=
  Rc cap q l /\ (0 < cap -> qtail q = wrap cap (qhead q + nr q)).

Ltac bdestr :=
  repeat match goal with
  | |- context [?a <? ?b] => destruct (Nat.ltb_spec a b)
  | |- context [?a <=? ?b] => destruct (Nat.leb_spec a b)
  | |- context [Nat.eqb ?a ?b] => destruct (Nat.eqb_spec a b)
  end.

Lemma R_init cap : R cap (q_init null cap) [].
Proof.
  unfold R, Rc, q_init, wrap; cbn. rewrite repeat_length.
  repeat split; try lia. intros Hc. destruct (Nat.leb_spec cap 0); lia.
Qed.

Lemma append_ok cap q l v : R cap q l ->
  exists q', q_append q v = Some (q', fst (length l <? cap, tt)) /\
             R cap q' (fst (spec_step null cap l (QAppend v))).
Proof.
  intros [(Hq & Hs & Hn & Hle & Hh & Hc) Ht].
  unfold q_append, spec_step. cbn [fst]. rewrite Hq, <- Hn.
  destruct (Nat.leb_spec cap (nr q)).
  - destruct (Nat.ltb_spec (nr q) cap); [lia|]. cbn. eexists; split; [reflexivity|].
    repeat split; auto.
  - destruct (Nat.ltb_spec (nr q) cap); [|lia].
    assert (Hc0 : 0 < cap) by lia. specialize (Hh Hc0). specialize (Ht Hc0).
    assert (Htl : qtail q < cap) by (rewrite Ht; unfold wrap; destruct (Nat.leb_spec cap (qhead q + nr q)); lia).
    unfold store. rewrite Hs. destruct (Nat.ltb_spec (qtail q) cap); [|lia].
    cbn [obind fst]. eexists; split; [reflexivity|].
    unfold R, Rc; cbn [slots qhead qtail qlen nr]. rewrite upd_length, app_length; cbn [length].
    assert (Htn : forall i, i < nr q -> qtail q <> wrap cap (qhead q + i)).
    { intros i Hi. rewrite Ht. unfold wrap.
      destruct (Nat.leb_spec cap (qhead q + nr q)), (Nat.leb_spec cap (qhead q + i)); lia. }
    repeat split; auto; try lia.
    + intros i Hi. destruct (Nat.eq_dec i (nr q)) as [->|Hne].
      * rewrite <- Ht. rewrite nth_error_upd_eq by lia.
        rewrite nth_error_app2 by lia. rewrite Hn, Nat.sub_diag. reflexivity.
      * rewrite nth_error_upd_neq by (apply Htn; lia).
        rewrite Hc by lia. rewrite nth_error_app1 by lia. reflexivity.
    + intros _. revert Ht. unfold wrap. destruct (Nat.eqb_spec (S (qtail q)) cap);
        destruct (Nat.leb_spec cap (qhead q + nr q)); destruct (Nat.leb_spec cap (qhead q + S (nr q))); lia.
Qed.

Lemma get_ok cap q l : Rc cap q l -> q_get null q = Some (hd null l).
Proof.
  intros (Hq & Hs & Hn & Hle & Hh & Hc). unfold q_get.
  destruct l as [|a l]; cbn in Hn; rewrite Hn; cbn [Nat.eqb hd]; auto.
  assert (Hc0 : 0 < cap) by lia. specialize (Hh Hc0).
  specialize (Hc 0). rewrite Hn in Hc. rewrite Nat.add_0_r in Hc. unfold wrap in Hc.
  destruct (Nat.leb_spec cap (qhead q)); [lia|]. rewrite Hc by lia. reflexivity.
Qed.

Lemma remove_ok cap q l : Rc cap q l -> Rc cap (q_remove q) (tl l).
Proof.
  intros (Hq & Hs & Hn & Hle & Hh & Hc). unfold q_remove.
  destruct l as [|a l]; cbn in Hn.
  - rewrite Hn; cbn [Nat.eqb]. repeat split; auto.
  - rewrite Hn; cbn [Nat.eqb tl]. unfold Rc; cbn [slots qhead qtail qlen nr].
    assert (Hc0 : 0 < cap) by lia. specialize (Hh Hc0).
    repeat split; auto; try lia.
    + intros _. destruct (Nat.leb_spec (qlen q) (S (qhead q))); lia.
    + intros i Hi. specialize (Hc (S i)). cbn [nth_error] in Hc. rewrite <- Hc by lia.
      f_equal. unfold wrap. rewrite Hq.
      destruct (Nat.leb_spec cap (S (qhead q))); destruct (Nat.leb_spec cap (qhead q + S i)).
      all: try (destruct (Nat.leb_spec cap (0 + i)); lia).
      all: destruct (Nat.leb_spec cap (S (qhead q) + i)); lia.
Qed.

Lemma remove_tail cap q l : R cap q l -> R cap (q_remove q) (tl l).
Proof.
  intros [HR Ht]. split; [eapply remove_ok; eauto|].
  destruct HR as (Hq & Hs & Hn & Hle & Hh & Hc).
  intros Hc0. specialize (Ht Hc0). specialize (Hh Hc0). unfold q_remove.
  destruct (Nat.eqb_spec (nr q) 0); auto. cbn [qtail qhead nr].
  rewrite Ht. unfold wrap. rewrite Hq.
  destruct (Nat.leb_spec cap (S (qhead q))); destruct (Nat.leb_spec cap (qhead q + nr q)).
  all: try (destruct (Nat.leb_spec cap (0 + (nr q - 1))); lia).
  all: destruct (Nat.leb_spec cap (S (qhead q) + (nr q - 1))); lia.
Qed.

Lemma search_ok cap q l i : Rc cap q l -> q_search null q i = Some (nth i l null).
Proof.
  intros (Hq & Hs & Hn & Hle & Hh & Hc). unfold q_search.
  destruct (Nat.leb_spec (nr q) i).
  - rewrite nth_overflow by lia. reflexivity.
  - specialize (Hc i H). unfold wrap in Hc. rewrite Hq. rewrite Hc.
    apply nth_error_nth'. lia.
Qed.

Lemma iter_ok_aux cap q : qlen q = cap -> 0 < cap ->
  forall l h, h < cap -> length l <= cap ->
  (forall i, i < length l -> nth_error (slots q) (wrap cap (h + i)) = nth_error l i) ->
  q_iter_loop (length l) q h = Some l.
Proof.
  intros Hq Hc0. induction l as [|a l IH]; intros h Hh Hle Hc; cbn [length q_iter_loop]; auto.
  cbn [length] in *.
  pose proof (Hc 0 ltac:(lia)) as H0. rewrite Nat.add_0_r in H0. unfold wrap in H0 at 1.
  destruct (Nat.leb_spec cap h); [lia|]. rewrite H0. cbn [nth_error obind].
  rewrite IH.
  - reflexivity.
  - rewrite Hq. destruct (Nat.leb_spec cap (S h)); lia.
  - lia.
  - intros i Hi. rewrite Hq. specialize (Hc (S i) ltac:(lia)). cbn [nth_error] in Hc.
    rewrite <- Hc. f_equal. unfold wrap.
    destruct (Nat.leb_spec cap (S h)); destruct (Nat.leb_spec cap (h + S i)).
    all: try (destruct (Nat.leb_spec cap (0 + i)); lia).
    all: destruct (Nat.leb_spec cap (S h + i)); lia.
Qed.

Lemma iterate_ok cap q l : Rc cap q l -> q_iterate q = Some l.
Proof.
  intros (Hq & Hs & Hn & Hle & Hh & Hc). unfold q_iterate. rewrite Hn.
  destruct l as [|a l]; [reflexivity|].
  assert (0 < cap) by (cbn in Hn; lia).
  apply iter_ok_aux with (cap := cap); auto; try lia.
  intros i Hi. apply Hc. lia.
Qed.

Lemma destroy_iter n q :
  q_destroy_loop n q = q_iter_loop n q (qhead q).
Proof.
  assert (G : forall n q h, qhead q = h -> forall q', slots q' = slots q -> qlen q' = qlen q ->
              q_destroy_loop n q = q_iter_loop n q' h).
  { induction n0 as [|m IH]; intros q0 h Hh q' Hs Hq; cbn [q_destroy_loop q_iter_loop]; auto.
    rewrite Hs, Hh, Hq. destruct (nth_error (slots q0) h); cbn [obind]; auto.
    erewrite IH with (q' := q'); cbn; eauto. }
  apply G; auto.
Qed.

Lemma destroy_ok cap q l : Rc cap q l -> q_destroy q = Some l.
Proof.
  intros H. unfold q_destroy. rewrite destroy_iter. exact (iterate_ok cap q l H).
Qed.

(** The shifting loop of free_index. *)
Lemma fi_loop_ok cap n (sl : list V) pos :
  0 < cap -> length sl = cap -> n <= cap -> pos < cap ->
  exists sl', q_fi_loop n cap sl pos pos = Some (sl', wrap cap (pos + n)) /\
    length sl' = cap /\
    (forall i, i < n -> i + 1 < cap -> nth_error sl' (wrap cap (pos + i)) = nth_error sl (wrap cap (pos + i + 1))) /\
    (forall i, n <= i -> i < cap -> nth_error sl' (wrap cap (pos + i)) = nth_error sl (wrap cap (pos + i))).
Proof.
  intros Hc0. revert sl pos. induction n as [|n IH]; intros sl pos Hs Hn Hp.
  - exists sl. cbn [q_fi_loop]. repeat split; auto; try lia.
    f_equal. f_equal. unfold wrap. rewrite Nat.add_0_r. destruct (Nat.leb_spec cap pos); lia.
  - cbn [q_fi_loop].
    set (nx := if cap <=? S pos then 0 else S pos).
    assert (Hnx : nx < cap) by (unfold nx; destruct (Nat.leb_spec cap (S pos)); lia).
    destruct (nth_error sl nx) as [v|] eqn:Ev; [|apply nth_error_None in Ev; lia].
    cbn [obind]. unfold store. rewrite Hs. destruct (Nat.ltb_spec pos cap); [|lia]. cbn [obind].
    destruct (IH (upd sl pos v) nx) as (sl' & E & Hl & Ha & Hb); auto; try lia.
    { rewrite upd_length; auto. }
    exists sl'. fold nx. rewrite E. split.
    { f_equal. f_equal. unfold wrap, nx. destruct (Nat.leb_spec cap (S pos)).
      - destruct (Nat.leb_spec cap (0 + n)), (Nat.leb_spec cap (pos + S n)); lia.
      - destruct (Nat.leb_spec cap (S pos + n)), (Nat.leb_spec cap (pos + S n)); lia. }
    split; auto.
    assert (Hw : forall i, i + 1 <= cap -> wrap cap (nx + i) = wrap cap (pos + (i + 1))).
    { intros i Hi. unfold wrap, nx. destruct (Nat.leb_spec cap (S pos)).
      - destruct (Nat.leb_spec cap (0 + i)), (Nat.leb_spec cap (pos + (i + 1))); lia.
      - destruct (Nat.leb_spec cap (S pos + i)), (Nat.leb_spec cap (pos + (i + 1))); lia. }
    assert (Hwp : wrap cap pos = pos) by (unfold wrap; destruct (Nat.leb_spec cap pos); lia).
    assert (Hwn : wrap cap (pos + 1) = nx).
    { unfold wrap, nx. destruct (Nat.leb_spec cap (S pos)), (Nat.leb_spec cap (pos + 1)); lia. }
    assert (Hne : forall i, 0 < i -> i < cap -> pos <> wrap cap (pos + i)).
    { intros i H1 H2. unfold wrap. destruct (Nat.leb_spec cap (pos + i)); lia. }
    split.
    + intros i Hi Hi1. destruct i as [|i].
      * rewrite Nat.add_0_r, Hwp, Hwn, Ev.
        specialize (Hb (cap - 1)). rewrite Hw in Hb by lia.
        replace (pos + (cap - 1 + 1)) with (pos + cap) in Hb by lia.
        assert (Hpc : wrap cap (pos + cap) = pos) by (unfold wrap; destruct (Nat.leb_spec cap (pos + cap)); lia).
        rewrite Hpc in Hb. rewrite Hb by lia. apply nth_error_upd_eq. lia.
      * specialize (Ha i ltac:(lia) ltac:(lia)). rewrite Hw in Ha by lia.
        replace (nx + i + 1) with (nx + (i + 1)) in Ha by lia. rewrite Hw in Ha by lia.
        replace (pos + S i) with (pos + (i + 1)) by lia.
        rewrite Ha. rewrite nth_error_upd_neq.
        { f_equal. f_equal. lia. }
        replace (i + 1 + 1) with (S (S i)) by lia. apply Hne; lia.
    + intros i Hi Hi1. specialize (Hb (i - 1) ltac:(lia) ltac:(lia)).
      rewrite Hw in Hb by lia. replace (i - 1 + 1) with i in Hb by lia.
      rewrite Hb. apply nth_error_upd_neq. apply Hne; lia.
Qed.

Lemma free_index_ok cap q l i : Rc cap q l ->
  exists q', q_free_index q i = Some (q', nth_error l i) /\ Rc cap q' (remove_nth i l).
Proof.
  intros (Hq & Hs & Hn & Hle & Hh & Hc). unfold q_free_index.
  destruct (Nat.leb_spec (nr q) i) as [Hi|Hi].
  - exists q. rewrite (proj2 (nth_error_None l i)) by lia. split; auto.
    assert (E : remove_nth i l = l).
    { apply nth_error_ext. intros j. rewrite nth_error_remove_nth.
      destruct (Nat.ltb_spec j i); auto.
      rewrite !(proj2 (nth_error_None _ _)) by lia; auto. }
    rewrite E. repeat split; auto.
  - assert (Hc0 : 0 < cap) by lia. specialize (Hh Hc0).
    rewrite Hq. fold (wrap cap (qhead q + i)).
    rewrite (Hc i Hi). destruct (nth_error l i) as [v|] eqn:Ev; [|apply nth_error_None in Ev; lia].
    cbn [obind].
    set (pos := wrap cap (qhead q + i)).
    assert (Hpos : pos < cap) by (unfold pos, wrap; destruct (Nat.leb_spec cap (qhead q + i)); lia).
    destruct (fi_loop_ok cap (nr q - i) (slots q) pos Hc0 Hs ltac:(lia) Hpos) as (sl' & E & Hl & Ha & Hb).
    rewrite E. cbn [obind]. eexists; split; [reflexivity|].
    assert (Hw : forall j, i + j < 2 * cap -> j < cap -> i <= nr q -> wrap cap (pos + j) = wrap cap (qhead q + (i + j)) \/ cap <= i + j).
    { intros j H1 H2 _. unfold pos, wrap. destruct (Nat.leb_spec cap (qhead q + i)).
      - destruct (Nat.leb_spec cap (qhead q + i - cap + j)), (Nat.leb_spec cap (qhead q + (i + j))); lia.
      - destruct (Nat.leb_spec cap (qhead q + i + j)), (Nat.leb_spec cap (qhead q + (i + j))); lia. }
    unfold Rc; cbn [qlen slots nr qhead].
    rewrite remove_nth_length by lia.
    repeat split; auto; try lia.
    intros j Hj. rewrite nth_error_remove_nth. destruct (Nat.ltb_spec j i) as [Hji|Hji].
    + (* position qhead+j = pos + (cap - i + j) *)
      assert (Ew : wrap cap (qhead q + j) = wrap cap (pos + (cap - i + j))).
      { unfold pos, wrap. destruct (Nat.leb_spec cap (qhead q + i)), (Nat.leb_spec cap (qhead q + j)).
        - destruct (Nat.leb_spec cap (qhead q + i - cap + (cap - i + j))); lia.
        - destruct (Nat.leb_spec cap (qhead q + i - cap + (cap - i + j))); lia.
        - destruct (Nat.leb_spec cap (qhead q + i + (cap - i + j))); lia.
        - destruct (Nat.leb_spec cap (qhead q + i + (cap - i + j))); lia. }
      rewrite Ew, Hb by lia. rewrite <- Ew. apply Hc. lia.
    + specialize (Ha (j - i) ltac:(lia) ltac:(lia)).
      destruct (Hw (j - i)) as [E1|E1]; try lia.
      rewrite E1 in Ha. replace (i + (j - i)) with j in Ha by lia. rewrite Ha.
      replace (pos + (j - i) + 1) with (pos + (j - i + 1)) by lia.
      destruct (Hw (j - i + 1)) as [E2|E2]; try lia.
      rewrite E2. replace (i + (j - i + 1)) with (S j) by lia. apply Hc. lia.
Qed.


Lemma step_R cap q l o : R cap q l -> no_free_index o ->
  exists q', q_step null q o = Some (q', snd (spec_step null cap l o)) /\ R cap q' (fst (spec_step null cap l o)).
Proof.
  intros HR Ho. pose proof (proj1 HR) as HRc. destruct o; cbn [q_step]; try contradiction.
  - destruct (append_ok cap q l v HR) as (q' & E & H). rewrite E. cbn [obind fst snd].
    exists q'. split; auto. cbn [spec_step]. destruct (length l <? cap); reflexivity.
  - rewrite (get_ok cap q l HRc). cbn. eauto.
  - cbn. eexists; split; [reflexivity|]. apply remove_tail; auto.
  - rewrite (search_ok cap q l i HRc). cbn. eauto.
  - rewrite (iterate_ok cap q l HRc). cbn. eauto.
  - cbn. destruct HRc as (_ & _ & -> & _). eauto.
Qed.

Lemma step_Rc cap q l o : Rc cap q l -> no_append o ->
  exists q', q_step null q o = Some (q', snd (spec_step null cap l o)) /\ Rc cap q' (fst (spec_step null cap l o)).
Proof.
  intros HRc Ho. destruct o; cbn [q_step]; try contradiction.
  - rewrite (get_ok cap q l HRc). cbn. eauto.
  - cbn. eexists; split; [reflexivity|]. apply remove_ok; auto.
  - rewrite (search_ok cap q l i HRc). cbn. eauto.
  - rewrite (iterate_ok cap q l HRc). cbn. eauto.
  - cbn. destruct HRc as (H1 & H2 & H3 & H4). rewrite H3. eexists; split; [reflexivity|].
    unfold Rc; tauto.
  - destruct (free_index_ok cap q l i HRc) as (q' & E & H). rewrite E. cbn. eauto.
Qed.

Lemma run_R cap ops : Forall no_free_index ops -> forall q l, R cap q l ->
  exists q', q_run null q ops = Some (q', snd (spec_run null cap l ops)) /\ R cap q' (fst (spec_run null cap l ops)).
Proof.
  induction 1 as [|o ops Ho _ IH]; intros q l HR; cbn [q_run spec_run].
  - eexists; split; [reflexivity|]. exact HR.
  - destruct (step_R cap q l o HR Ho) as (q1 & E1 & HR1). rewrite E1. cbn [obind fst snd].
    destruct (spec_step null cap l o) as [l1 x] eqn:Es. cbn [fst snd] in *.
    destruct (IH q1 l1 HR1) as (q2 & E2 & HR2). rewrite E2. cbn [obind fst snd].
    destruct (spec_run null cap l1 ops) as [l2 xs]. cbn [fst snd] in *. eauto.
Qed.

Lemma run_Rc cap ops : Forall no_append ops -> forall q l, Rc cap q l ->
  exists q', q_run null q ops = Some (q', snd (spec_run null cap l ops)) /\ Rc cap q' (fst (spec_run null cap l ops)).
Proof.
  induction 1 as [|o ops Ho _ IH]; intros q l HR; cbn [q_run spec_run].
  - eexists; split; [reflexivity|]. exact HR.
  - destruct (step_Rc cap q l o HR Ho) as (q1 & E1 & HR1). rewrite E1. cbn [obind fst snd].
    destruct (spec_step null cap l o) as [l1 x] eqn:Es. cbn [fst snd] in *.
    destruct (IH q1 l1 HR1) as (q2 & E2 & HR2). rewrite E2. cbn [obind fst snd].
    destruct (spec_run null cap l1 ops) as [l2 xs]. cbn [fst snd] in *. eauto.
Qed.

Lemma run_app q ops1 ops2 :
  q_run null q (ops1 ++ ops2) =
  (r <- q_run null q ops1 ;; s <- q_run null (fst r) ops2 ;; Some (fst s, snd r ++ snd s)).
Proof.
  revert q. induction ops1 as [|o ops1 IH]; intros q; cbn [q_run app].
  - cbn. destruct (q_run null q ops2) as [[? ?]|]; reflexivity.
  - destruct (q_step null q o) as [[q1 x]|]; cbn [obind fst snd]; auto.
    rewrite IH. destruct (q_run null q1 ops1) as [[q2 xs]|]; cbn [obind fst snd]; auto.
    destruct (q_run null q2 ops2) as [[q3 ys]|]; cbn [obind fst snd]; auto.
Qed.

Lemma spec_run_app cap l ops1 ops2 :
  spec_run null cap l (ops1 ++ ops2) =
  (fst (spec_run null cap (fst (spec_run null cap l ops1)) ops2),
   snd (spec_run null cap l ops1) ++ snd (spec_run null cap (fst (spec_run null cap l ops1)) ops2)).
Proof.
  revert l. induction ops1 as [|o ops1 IH]; intros l; cbn [spec_run app].
  - cbn. destruct (spec_run null cap l ops2); reflexivity.
  - destruct (spec_step null cap l o) as [l1 x]. rewrite IH.
    destruct (spec_run null cap l1 ops1) as [l2 xs]. cbn [fst snd].
    destruct (spec_run null cap l2 ops2) as [l3 ys]. cbn [fst snd]. reflexivity.
Qed.

Lemma queue_fifo_lemma cap ops : Forall no_free_index ops ->
  exists q, q_run null (q_init null cap) ops = Some (q, snd (spec_run null cap [] ops)) /\
            q_destroy q = Some (fst (spec_run null cap [] ops)).
Proof.
  intros H. destruct (run_R cap ops H _ _ (R_init cap)) as (q & E & HR).
  exists q. split; auto. eapply destroy_ok. apply HR.
Qed.

Lemma queue_free_index_lemma cap ops1 ops2 :
  Forall no_free_index ops1 -> Forall no_append ops2 ->
  exists q, q_run null (q_init null cap) (ops1 ++ ops2) = Some (q, snd (spec_run null cap [] (ops1 ++ ops2))) /\
            q_destroy q = Some (fst (spec_run null cap [] (ops1 ++ ops2))).
Proof.
  intros H1 H2. destruct (run_R cap ops1 H1 _ _ (R_init cap)) as (q & E & HR).
  destruct (run_Rc cap ops2 H2 q _ (proj1 HR)) as (q2 & E2 & HR2).
  exists q2. rewrite run_app, E. cbn [obind fst snd]. rewrite E2. cbn [obind fst snd].
  rewrite spec_run_app. cbn [fst snd]. split; auto. eapply destroy_ok; eauto.
Qed.
End Proofs.

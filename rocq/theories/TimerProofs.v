(** * Proofs about timers *)
Require Import List Arith NArith Bool Lia.
Require Import ZifyBool ZifyNat ZifyN.
Require Import Verif.Base Verif.TimerModel Verif.TimerSpec.
Import ListNotations.
Local Open Scope N_scope.

Record inv (s : tstate) (h : list event) : Prop := {
  inv_heap : forall x, In x (heap s) -> exists msec now, set_in h (node x) msec now (handler x) /\ end_tm x = now + msec * 1000 /\ ~ gone_in h (node x);
  inv_wait : forall id msec now hd, set_in h id msec now hd -> ~ gone_in h id -> exists x, In x (heap s) /\ node x = id;
  inv_fresh : forall id msec now hd, set_in h id msec now hd -> (id < fresh s)%nat;
  inv_same : forall id m n d m' n' d', set_in h id m n d -> set_in h id m' n' d' -> m = m' /\ n = n' /\ d = d';
  inv_gone : forall id, gone_in h id -> (id < fresh s)%nat }.
Lemma find_some id l x : find id l = Some x -> In x l /\ node x = id.
Proof. unfold find. intros H. apply find_some in H. destruct H as [H1 H2]. apply Nat.eqb_eq in H2. auto. Qed.
Lemma in_without id l x : In x (without id l) <-> In x l /\ node x <> id.
Proof. unfold without. rewrite filter_In. destruct (Nat.eqb_spec (node x) id); cbn; intuition. Qed.
Lemma gone_cons h e id : gone_in (e :: h) id <-> gone_in h id \/ e = Cancelled id \/ e = Dropped id \/ exists hd now, e = Called id hd now.
Proof.
  unfold gone_in. cbn [In]. split.
  - intros [[->|H]|[[->|H]|(hd & now & [->|H])]]; eauto 8.
  - intros [[H|[H|(hd & now & H)]]|[->|[->|(hd & now & ->)]]]; eauto 8.
Qed.
Lemma ends_short now msec : msec < 4294968 -> now < 2 ^ 63 -> ends now msec = now + msec * 1000 \/ 4294967 < msec.
Proof. intros H H'. destruct (N.ltb_spec 4294967 msec); [auto|left]. unfold ends. change (2 ^ 32) with 4294967296. rewrite (N.mod_small (msec * 1000)) by lia. apply N.mod_small. change (2 ^ 64) with 18446744073709551616. change (2 ^ 63) with 9223372036854775808 in H'. lia. Qed.
Lemma inv_set s h msec now hd : inv s h -> short (Set_ msec now hd) -> inv (mkTS (mkT (fresh s) (ends now msec) hd :: heap s) (S (fresh s)) (broken s) (threads s)) (WasSet (fresh s) msec now hd :: h) /\ allowed h (WasSet (fresh s) msec now hd).
Proof.
  intros I [Sh1 Sh2]. destruct (ends_short now msec Sh1 Sh2) as [En|En]; [|lia]. split.
  - constructor; cbn [heap fresh].
    + intros x [<-|H]; cbn [node end_tm handler].
      * exists msec, now. split; [left; reflexivity|]. split; [exact En|]. rewrite gone_cons. intros [H|[H|[H|(a & b & H)]]]; try discriminate. apply (inv_gone _ _ I) in H. lia.
      * destruct (inv_heap _ _ I x H) as (m & n & H1 & H2 & H3). exists m, n. split; [right; exact H1|]. split; [exact H2|]. rewrite gone_cons. intros [G|[G|[G|(a & b & G)]]]; try discriminate. auto.
    + intros id m n d [H|H] G.
      * injection H as <- <- <- <-. eexists. split; [left; reflexivity|reflexivity].
      * destruct (inv_wait _ _ I id m n d H) as (x & X1 & X2); [intros G'; apply G; rewrite gone_cons; auto|]. exists x. split; [right; exact X1|exact X2].
    + intros id m n d [H|H]; [injection H as <- <- <- <-; lia|]. apply (inv_fresh _ _ I) in H. lia.
    + intros id m n d m' n' d' [H|H] [H'|H']; [injection H as <- <- <- <-; injection H' as <- <- <-; auto| | |apply (inv_same _ _ I id); auto].
      * injection H as <- <- <- <-. apply (inv_fresh _ _ I) in H'. lia.
      * injection H' as <- <- <- <-. apply (inv_fresh _ _ I) in H. lia.
    + intros id. rewrite gone_cons. intros [G|[G|[G|(a & b & G)]]]; try discriminate. apply (inv_gone _ _ I) in G. lia.
  - intros m n d H. apply (inv_fresh _ _ I) in H. lia.
Qed.
(** A timer is taken from the heap, and the event tells so. *)
Lemma inv_take s h s' id e x : inv s h -> find id (heap s) = Some x -> heap s' = without id (heap s) -> fresh s' = fresh s ->
  (e = Cancelled id \/ e = Dropped id \/ exists hd now, e = Called id hd now) -> inv s' (e :: h).
Proof.
  intros I F Hh Hf E. assert (Es : forall i m n d, set_in (e :: h) i m n d <-> set_in h i m n d).
  { intros i m n d. unfold set_in. cbn [In]. split; [|auto]. intros [H|H]; [|exact H]. destruct E as [->|[->|(a & b & ->)]]; discriminate. }
  assert (Eg : forall i, gone_in (e :: h) i <-> gone_in h i \/ i = id).
  { intros i. rewrite gone_cons. split.
    - intros [G|G]; [auto|right]. destruct E as [->|[->|(a & b & ->)]], G as [G|[G|(a' & b' & G)]]; try discriminate; injection G; auto.
    - intros [G| ->]; auto. }
  constructor; rewrite ?Hh, ?Hf.
  - intros y H. apply in_without in H as [H N1]. destruct (inv_heap _ _ I y H) as (m & n & H1 & H2 & H3). exists m, n. rewrite Es, Eg. split; [exact H1|]. split; [exact H2|]. intros [G|G]; auto.
  - intros i m n d. rewrite Es, Eg. intros H G. destruct (inv_wait _ _ I i m n d H) as (y & Y1 & Y2); [auto|]. exists y. split; [|exact Y2]. apply in_without. split; [exact Y1|]. intros X. apply G. right. congruence.
  - intros i m n d. rewrite Es. apply (inv_fresh _ _ I).
  - intros i m n d m' n' d'. rewrite !Es. apply (inv_same _ _ I).
  - intros i. rewrite Eg. intros [G| ->]; [now apply (inv_gone _ _ I)|]. apply find_some in F as [F1 F2]. destruct (inv_heap _ _ I x F1) as (m & n & H1 & _). rewrite F2 in H1. now apply (inv_fresh _ _ I) in H1.
Qed.
Lemma inv_quiet s h s' : inv s h -> heap s' = heap s -> fresh s' = fresh s -> inv s' h.
Proof. intros I H1 H2. destruct I. constructor; rewrite ?H1, ?H2; assumption. Qed.
Lemma waiting_heap s h id due : inv s h -> waiting h id due -> exists x, In x (heap s) /\ node x = id /\ end_tm x = due.
Proof.
  intros I (m & n & d & H1 & -> & G). destruct (inv_wait _ _ I id m n d H1 G) as (x & X1 & <-). exists x. split; [exact X1|]. split; [reflexivity|].
  destruct (inv_heap _ _ I x X1) as (m' & n' & H2 & -> & _). destruct (inv_same _ _ I _ _ _ _ _ _ _ H1 H2) as (-> & -> & _). reflexivity.
Qed.
Lemma inv_passed s h s' now : inv s h -> heap s' = heap s -> fresh s' = fresh s -> inv s' (Passed now :: h).
Proof.
  intros I H1 H2. assert (Es : forall i m n d, set_in (Passed now :: h) i m n d <-> set_in h i m n d) by (intros; unfold set_in; cbn [In]; intuition discriminate).
  assert (Eg : forall i, gone_in (Passed now :: h) i <-> gone_in h i) by (intros i; rewrite gone_cons; split; [intros [G|[G|[G|(a & b & G)]]]; [exact G|discriminate..]|auto]).
  constructor; rewrite ?H1, ?H2.
  - intros x H. destruct (inv_heap _ _ I x H) as (m & n & X1 & X2 & X3). exists m, n. now rewrite Es, Eg.
  - intros i m n d. rewrite Es, Eg. apply (inv_wait _ _ I).
  - intros i m n d. rewrite Es. apply (inv_fresh _ _ I).
  - intros i m n d m' n' d'. rewrite !Es. apply (inv_same _ _ I).
  - intros i. rewrite Eg. apply (inv_gone _ _ I).
Qed.
Lemma step_ok s h l s' e : inv s h -> proper h -> short l -> step s l = Some (s', e) -> inv s' (e ++ h) /\ proper (e ++ h).
Proof.
  intros I P Sh E. destruct l as [msec now hd|id| |t now|t|t id|t|t]; cbn [step] in E.
  - injection E as <- <-. destruct (inv_set s h msec now hd I Sh). cbn [app proper]. auto.
  - destruct (find id (heap s)) as [x|] eqn:F; [|discriminate]. injection E as <- <-. cbn [app proper]. split; [|split; [|exact P]].
    + apply (inv_take s h _ id _ x I F); auto.
    + apply find_some in F as [F1 <-]. destruct (inv_heap _ _ I x F1) as (m & n & H1 & H2 & H3). exists (n + m * 1000), m, n, (handler x). auto.
  - injection E as <- <-. split; [|exact P]. apply (inv_quiet s); auto.
  - destruct (threads s t); try discriminate. injection E as <- <-. split; [|exact P]. apply (inv_quiet s); auto.
  - destruct (threads s t); try discriminate. injection E as <- <-. split; [|exact P]. apply (inv_quiet s); auto.
  - destruct (threads s t) as [|now|]; try discriminate. destruct (find id (heap s)) as [x|] eqn:F; [|discriminate].
    destruct (forallb (fun y => end_tm x <=? end_tm y) (heap s)) eqn:B1; [|discriminate]. destruct (end_tm x <=? now) eqn:B2; [|discriminate]. cbn [andb] in E.
    pose proof (find_some _ _ _ F) as [F1 F2]. destruct (inv_heap _ _ I x F1) as (m & n & H1 & H2 & H3). rewrite F2 in *.
    destruct (handler x) as [hd|] eqn:Hd; injection E as <- <-; cbn [app proper].
    + split; [apply (inv_take s h _ id _ x I F); eauto|]. split; [|exact P]. exists m, n. split; [exact H1|]. split; [exact H3|]. split; [lia|].
      intros id' due W. destruct (waiting_heap s h id' due I W) as (y & Y1 & Y2 & Y3). rewrite forallb_forall in B1. specialize (B1 y Y1). lia.
    + split; [apply (inv_take s h _ id _ x I F); eauto|]. split; [|exact P]. exists m, n. auto.
  - destruct (threads s t) as [|now|]; try discriminate. destruct (forallb (fun x => now <? end_tm x) (heap s)) eqn:B; [|discriminate]. injection E as <- <-. cbn [app proper].
    split; [apply (inv_passed s); auto|]. split; [|exact P]. intros id due W. destruct (waiting_heap s h id due I W) as (y & Y1 & Y2 & Y3). rewrite forallb_forall in B. specialize (B y Y1). lia.
  - destruct (threads s t); try discriminate. injection E as <- <-. split; [|exact P]. apply (inv_quiet s); auto.
Qed.
Lemma inv_new : inv timers_new [].
Proof. constructor; cbn; intros; try contradiction. destruct H as [[]|[[]|(a & b & [])]]. Qed.
Lemma run_ok : forall ls s h s' h', inv s h -> proper h -> Forall short ls -> run s h ls = Some (s', h') -> inv s' h' /\ proper h'.
Proof.
  induction ls as [|l ls IH]; intros s h s' h' I P Sh E; cbn [run] in E; [injection E as <- <-; auto|].
  inversion Sh as [|? ? Sh1 Sh2]; subst. destruct (step s l) as [[s1 e]|] eqn:St; [|discriminate]. destruct (step_ok s h l s1 e I P Sh1 St). eapply IH; eauto.
Qed.
Lemma least : forall (l : list timer), l <> [] -> exists x, In x l /\ forall y, In y l -> end_tm x <= end_tm y.
Proof.
  induction l as [|x l IH]; intros H; [contradiction|]. destruct l as [|y l].
  - exists x. split; [left; reflexivity|]. intros z [<-|[]]. lia.
  - destruct IH as (m & M1 & M2); [discriminate|]. destruct (N.leb_spec (end_tm x) (end_tm m)) as [L|L].
    + exists x. split; [left; reflexivity|]. intros z [<-|Z]; [lia|]. specialize (M2 z Z). lia.
    + exists m. split; [right; exact M1|]. intros z [<-|Z]; [lia|]. now apply M2.
Qed.
Definition unique (l : list timer) : Prop := forall x y, In x l -> In y l -> node x = node y -> x = y.
Lemma find_in l x : unique l -> In x l -> find (node x) l = Some x.
Proof.
  intros U I. unfold find. destruct (List.find (fun y => Nat.eqb (node y) (node x)) l) as [y|] eqn:E.
  - apply List.find_some in E as [E1 E2]. apply Nat.eqb_eq in E2. f_equal. apply U; auto.
  - apply (find_none _ _ E) in I. rewrite Nat.eqb_refl in I. discriminate.
Qed.
Lemma step_unique s l s' e : unique (heap s) /\ (forall x, In x (heap s) -> node x < fresh s)%nat -> step s l = Some (s', e) -> unique (heap s') /\ (forall x, In x (heap s') -> node x < fresh s')%nat.
Proof.
  assert (W : forall id s, unique (heap s) /\ (forall x, In x (heap s) -> node x < fresh s)%nat -> unique (without id (heap s)) /\ (forall x, In x (without id (heap s)) -> node x < fresh s)%nat).
  { intros id s0 [U F]. split; [intros x y X Y; apply in_without in X as [X _]; apply in_without in Y as [Y _]; now apply U|]. intros x X. apply in_without in X as [X _]. now apply F. }
  intros [U F] E. destruct l as [msec now hd|id| |t now|t|t id|t|t]; cbn [step] in E.
  - injection E as <- <-. cbn [heap fresh]. split.
    + intros x y [<-|X] [<-|Y] N1; auto; [apply F in Y; cbn [node] in N1; lia|apply F in X; cbn [node] in N1; lia].
    + intros x [<-|X]; [cbn [node]; lia|]. apply F in X. lia.
  - destruct (find id (heap s)); [|discriminate]. injection E as <- <-. apply (W id s). auto.
  - injection E as <- <-. auto.
  - destruct (threads s t); try discriminate. injection E as <- <-. auto.
  - destruct (threads s t); try discriminate. injection E as <- <-. auto.
  - destruct (threads s t); try discriminate. destruct (find id (heap s)) as [x|]; [|discriminate]. destruct (_ && _); [|discriminate]. destruct (handler x); injection E as <- <-; apply (W id s); auto.
  - destruct (threads s t); try discriminate. destruct (forallb _ _); [|discriminate]. injection E as <- <-. auto.
  - destruct (threads s t); try discriminate. injection E as <- <-. auto.
Qed.
Lemma run_unique : forall ls s h s' h', unique (heap s) /\ (forall x, In x (heap s) -> node x < fresh s)%nat -> run s h ls = Some (s', h') -> unique (heap s').
Proof.
  induction ls as [|l ls IH]; intros s h s' h' U E; cbn [run] in E; [injection E as <- <-; apply U|].
  destruct (step s l) as [[s1 e]|] eqn:St; [|discriminate]. eapply IH; [|exact E]. eapply step_unique; eauto.
Qed.
Lemma scan_goes_on s t now : unique (heap s) -> threads s t = Scan now -> step s (Nothing t) <> None \/ exists id, step s (Take t id) <> None.
Proof.
  intros U T. cbn [step]. rewrite T. destruct (forallb (fun x => now <? end_tm x) (heap s)) eqn:B; [left; discriminate|right].
  destruct (heap s) as [|y l] eqn:H; [discriminate|]. rewrite <- H in *. destruct (least (heap s)) as (x & X1 & X2); [rewrite H; discriminate|].
  exists (node x). rewrite (find_in _ _ U X1).
  assert (B1 : forallb (fun z => end_tm x <=? end_tm z) (heap s) = true) by (apply forallb_forall; intros z Z; apply N.leb_le; auto).
  assert (B2 : (end_tm x <=? now) = true).
  { destruct (N.leb_spec (end_tm x) now) as [L|L]; [reflexivity|]. exfalso. assert (C : forallb (fun x => now <? end_tm x) (heap s) = true); [|congruence]. apply forallb_forall. intros z Z. specialize (X2 z Z). lia. }
  rewrite B1, B2. destruct (handler x); discriminate.
Qed.

(** ** The time of a pass *)
Definition at_time (s : tstate) (t : nat) (now : N) : Prop := match threads s t with Elsewhere => True | Scan n | Running _ n => n = now end.
Lemma at_time_upd s t now t' p hp fr b : at_time s t now -> (t' = t -> match p with Elsewhere => True | Scan n | Running _ n => n = now end) -> at_time (mkTS hp fr b (upd (threads s) t' p)) t now.
Proof. intros A P. unfold at_time, upd in *. cbn [threads]. destruct (Nat.eqb_spec t t') as [->|N]; [now apply P|exact A]. Qed.
Lemma step_time s l s' e t now : step s l = Some (s', e) -> (forall n, l <> Enter t n) -> at_time s t now -> at_time s' t now.
Proof.
  intros E L A. assert (A' := A). unfold at_time in A'. destruct l as [msec n h|id| |t' n|t'|t' id|t'|t']; cbn [step] in E.
  - injection E as <- _. exact A.
  - destruct (find id (heap s)); [|discriminate]. injection E as <- _. exact A.
  - injection E as <- _. exact A.
  - destruct (threads s t') eqn:T; try discriminate. injection E as <- _. apply at_time_upd; [exact A|]. intros ->. elim (L n). reflexivity.
  - destruct (threads s t') eqn:T; try discriminate. injection E as <- _. apply at_time_upd; [exact A|]. auto.
  - destruct (threads s t') as [|n|] eqn:T; try discriminate. destruct (find id (heap s)) as [x|]; [|discriminate]. destruct (_ && _); [|discriminate].
    destruct (handler x); injection E as <- _; (apply at_time_upd; [exact A|]; intros ->; rewrite T in A'); [exact A'|]. destruct (broken s); auto.
  - destruct (threads s t') eqn:T; try discriminate. destruct (forallb _ _); [|discriminate]. injection E as <- _. apply at_time_upd; [exact A|]. auto.
  - destruct (threads s t') eqn:T; try discriminate. injection E as <- _. apply at_time_upd; [exact A|]. intros ->. rewrite T in A'. destruct (broken s); auto.
Qed.
Lemma run_time : forall ls s h s' h' t now, Forall (fun l => forall n, l <> Enter t n) ls -> run s h ls = Some (s', h') -> at_time s t now -> at_time s' t now.
Proof.
  induction ls as [|l ls IH]; intros s h s' h' t now F E A; cbn [run] in E; [injection E as <- _; exact A|].
  inversion F as [|? ? F1 F2]; subst. destruct (step s l) as [[s1 e]|] eqn:S1; [|discriminate]. eapply IH; eauto. eapply step_time; eauto.
Qed.
Lemma run_entered : forall l1 s h t now l2 s' h', run s h (l1 ++ Enter t now :: l2) = Some (s', h') -> Forall (fun l => forall n, l <> Enter t n) l2 -> at_time s' t now.
Proof.
  induction l1 as [|l l1 IH]; intros s h t now l2 s' h' E F; cbn [app run] in E.
  - destruct (step s (Enter t now)) as [[s1 e]|] eqn:S1; [|discriminate]. apply (run_time _ _ _ _ _ _ _ F E). cbn [step] in S1. destruct (threads s t); try discriminate. injection S1 as <- _.
    unfold at_time, set_pc, upd. cbn [threads]. now rewrite Nat.eqb_refl.
  - destruct (step s l) as [[s1 e]|]; [|discriminate]. eapply IH; eauto.
Qed.

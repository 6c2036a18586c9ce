Require Import List Arith NArith ZArith Bool Lia.
Require Import ZifyBool ZifyNat ZifyN.
Require Import Verif.Base Verif.LpipeModel Verif.LpipeSpec.
Import ListNotations.
Open Scope N_scope.

Definition R (c : ctx) (d : option chan) : Prop :=
  match c, d with
  | None, None => True
  | Some p, Some d => list_ p = waiting d /\ handler p = cb d /\ subscribed p = open d
  | _, _ => False
  end.

(** ** Memory and strings *)

Lemma alloc_in : forall m b m', alloc m = (b, m') -> (b = false -> In false m) /\ (In false m' -> In false m).
Proof.
  intros [|x m] b m' H; cbn [alloc] in H; pose proof (f_equal fst H) as A; pose proof (f_equal snd H) as B; cbn [fst snd] in A, B; subst; split; intros; try discriminate; auto.
  - now left.
  - now right.
Qed.

Lemma grow_in : forall n r m, match grow n r m with None => In false m | Some (_, m') => In false m' -> In false m end.
Proof.
  intros n r m. unfold grow. destruct (r <=? n)%nat; [|auto]. destruct (alloc m) as [b m'] eqn:A. destruct (alloc_in _ _ _ A) as [H1 H2]. destruct b; auto.
Qed.

Lemma upto0_some : forall s r, upto0 s = Some r -> exists behind, s = r ++ 0 :: behind /\ ~ In 0 r.
Proof.
  induction s as [|b s IH]; intros r H; cbn [upto0] in H; [discriminate|]. destruct (N.eqb_spec b 0) as [->|N].
  - assert (r = []) by congruence. subst. exists s. split; [reflexivity|intros []].
  - destruct (upto0 s) as [q|]; [|discriminate]. assert (r = b :: q) by congruence. subst. destruct (IH q eq_refl) as (be & -> & I).
    exists be. split; [reflexivity|]. intros [X|X]; [congruence|auto].
Qed.
Lemma upto0_end : forall r behind, ~ In 0 r -> upto0 (r ++ 0 :: behind) = Some r.
Proof.
  induction r as [|b r IH]; intros behind H; cbn [upto0 app]; [reflexivity|]. destruct (N.eqb_spec b 0) as [->|]; [exfalso; apply H; now left|].
  rewrite IH; [reflexivity|]. intros X. apply H. now right.
Qed.

Lemma change_last_app : forall A (f : A -> A) l x, change_last f (l ++ [x]) = l ++ [f x].
Proof. intros. unfold change_last. rewrite rev_app_distr. cbn [rev app]. now rewrite rev_involutive. Qed.

(** ** Sending *)

Lemma says_cons : forall x fmt args xs, item_ok x -> says fmt args xs -> says (letter x :: fmt) (argument x :: args) (x :: xs).
Proof. intros x fmt args xs O (F & -> & rest & ->). split; [now constructor|]. split; [reflexivity|]. now exists rest. Qed.
Lemma says_not_cons : forall x fmt args, item_ok x -> says_not fmt args -> says_not (letter x :: fmt) (argument x :: args).
Proof. intros x fmt args O (xs & ch & tail & rest & F & -> & -> & N). exists (x :: xs), ch, tail, rest. split; [now constructor|]. auto. Qed.
(** A call that has a meaning has an argument for its first letter. *)
Definition clear (fmt : list N) (args : list arg) : Prop := (exists xs, says fmt args xs) \/ says_not fmt args.
Lemma clear_first : forall ch fmt args, clear (ch :: fmt) args -> In ch [105; 115; 83; 114] ->
  exists x r, item_ok x /\ ch = letter x /\ args = argument x :: r /\ clear fmt r.
Proof.
  intros ch fmt args [([|x xs] & F & E & rest & ->)|([|x xs] & c & tail & rest & F & E & -> & N)] I; cbn [map app] in *; try discriminate.
  - apply Forall_cons_iff in F. destruct F as [F1 F2]. pose proof (f_equal (hd 0) E) as E1. pose proof (f_equal (@tl _) E) as E2. cbn [hd tl] in *.
    exists x, (map argument xs ++ rest). repeat split; auto. left. exists xs. repeat split; eauto.
  - pose proof (f_equal (hd 0) E) as E1. cbn [hd] in E1. subst. contradiction.
  - apply Forall_cons_iff in F. destruct F as [F1 F2]. pose proof (f_equal (hd 0) E) as E1. pose proof (f_equal (@tl _) E) as E2. cbn [hd tl] in *.
    exists x, (map argument xs ++ rest). repeat split; auto. right. exists xs, c, tail, rest. auto.
Qed.

Definition filled (p : pipe) (q : list (list value)) (acc : list value) (fmt : list N) (args : list arg) (m : list bool) (r : res (pipe * bool)) : Prop :=
  match r with
  | Ok (p', true) => exists xs, says fmt args xs /\ list_ p' = q ++ [acc ++ map meaning xs] /\ handler p' = handler p /\ subscribed p' = subscribed p
  | Ok (p', false) => list_ p' = q /\ handler p' = handler p /\ subscribed p' = subscribed p /\ (In false m \/ says_not fmt args)
  | Fault f => f = Argument /\ ~ clear fmt args
  end.

Lemma filled_cons : forall x p q acc fmt args m m' r, item_ok x -> (In false m' -> In false m) ->
  (forall y rest, item_ok y -> letter x = letter y -> argument x :: args = argument y :: rest -> rest = args) ->
  filled (mkP (q ++ [acc ++ [meaning x]]) (room p) (handler p) (subscribed p)) q (acc ++ [meaning x]) fmt args m' r ->
  filled p q acc (letter x :: fmt) (argument x :: args) m r.
Proof.
  intros x p q acc fmt args m m' [[p' []]|f] O M U H; cbn [filled handler subscribed] in *.
  - destruct H as (xs & S & L & HH & SS). exists (x :: xs). split; [now apply says_cons|]. split; [|auto]. rewrite L. cbn [map]. now rewrite <- app_assoc.
  - destruct H as (L & HH & SS & [I|N]); repeat split; auto. right. now apply says_not_cons.
  - destruct H as (E & N). split; [exact E|]. intros C. apply N.
    assert (I : In (letter x) [105; 115; 83; 114]) by (destruct x; cbn [letter In]; auto).
    destruct (clear_first _ _ _ C I) as (y & rest & Y1 & Y2 & Y3 & Y4). now rewrite <- (U y rest Y1 Y2 Y3).
Qed.

Lemma fill_ok : forall fmt args p erm n m q acc, list_ p = q ++ [acc] -> filled p q acc fmt args m (fill p erm n fmt args m).
Proof.
  induction fmt as [|ch fmt IH]; intros args p erm n m q acc E.
  - cbn [fill filled]. exists []. split; [repeat split; [constructor|now exists args]|]. cbn [map]. rewrite app_nil_r. auto.
  - cbn [fill]. pose proof (grow_in n erm m) as G.
    assert (POP : In false m \/ says_not (ch :: fmt) args -> filled p q acc (ch :: fmt) args m (Ok (mkP (removelast (list_ p)) (room p) (handler p) (subscribed p), false))).
    { intros H. cbn [filled list_ handler subscribed]. rewrite E, removelast_last. auto. }
    destruct (grow n erm m) as [[erm' m1]|]; [|apply POP; auto].
    assert (ADD : forall x args erm n m', item_ok x -> ch = letter x -> (In false m' -> In false m) ->
      filled p q acc (ch :: fmt) (argument x :: args) m (fill (mkP (change_last (fun l => l ++ [meaning x]) (list_ p)) (room p) (handler p) (subscribed p)) erm n fmt args m')).
    { intros x a r0 n0 m' O C I. subst ch. apply (filled_cons x p q acc fmt a m m' _ O I).
      - intros y rest _ _ Q. symmetry. apply (f_equal (@tl _) Q).
      - rewrite E, change_last_app. apply IH. reflexivity. }
    assert (DUP : forall x s a, item_ok x -> ch = letter x -> meaning x = Str s ->
      filled p q acc (ch :: fmt) (argument x :: a) m
        (let (b, m) := alloc m1 in
         if b then fill (mkP (change_last (fun l => l ++ [Str s]) (list_ p)) (room p) (handler p) (subscribed p)) erm' (S n) fmt a m
         else Ok (mkP (removelast (list_ p)) (room p) (handler p) (subscribed p), false))).
    { intros x s a O C V. destruct (alloc m1) as [b m2] eqn:A. destruct (alloc_in _ _ _ A) as [A1 A2]. destruct b.
      - rewrite <- V. apply ADD; auto.
      - cbn [filled list_ handler subscribed]. rewrite E, removelast_last. repeat split; auto. }
    assert (BAD : In ch [105; 115; 83; 114] -> (forall x r, item_ok x -> ch = letter x -> args <> argument x :: r) -> filled p q acc (ch :: fmt) args m (Fault Argument)).
    { intros I N. cbn [filled]. split; [reflexivity|]. intros C. destruct (clear_first _ _ _ C I) as (x & r & X1 & X2 & X3 & _). exact (N x r X1 X2 X3). }
    destruct (N.eqb_spec ch 105) as [C1|C1]; [|destruct (N.eqb_spec ch 115) as [C2|C2]; [|destruct (N.eqb_spec ch 83) as [C3|C3]; [|destruct (N.eqb_spec ch 114) as [C4|C4]]]].
    + destruct args as [|[i|r|s|s] args]; try (apply BAD; [cbn [In]; rewrite ?C1, ?C2, ?C3, ?C4; auto|intros [] rr _ L Q; cbn [letter argument] in *; first [discriminate Q | lia]]).
      apply (ADD (I i)); [exact Logic.I|exact C1|exact G].
    + destruct args as [|[i|r|s|s] args]; try (apply BAD; [cbn [In]; rewrite ?C1, ?C2, ?C3, ?C4; auto|intros [] rr _ L Q; cbn [letter argument] in *; first [discriminate Q | lia]]).
      destruct (upto0 s) as [t|] eqn:U.
      * destruct (upto0_some _ _ U) as (be & -> & N0). apply (DUP (T t be)); [exact N0|exact C2|reflexivity].
      * apply BAD; [cbn [In]; auto|]. intros [i|t be|t|r] r0 O L Q; cbn [letter argument] in *; try congruence.
        assert (s = t ++ 0 :: be) by congruence. subst s. rewrite upto0_end in U by exact O. discriminate.
    + destruct args as [|[i|r|s|s] args]; try (apply BAD; [cbn [In]; rewrite ?C1, ?C2, ?C3, ?C4; auto|intros [] rr _ L Q; cbn [letter argument] in *; first [discriminate Q | lia]]).
      apply (DUP (S_ s)); [exact Logic.I|exact C3|reflexivity].
    + destruct args as [|[i|r|s|s] args]; try (apply BAD; [cbn [In]; rewrite ?C1, ?C2, ?C3, ?C4; auto|intros [] rr _ L Q; cbn [letter argument] in *; first [discriminate Q | lia]]).
      apply (ADD (R_ r)); [exact Logic.I|exact C4|exact G].
    + apply POP. right. exists [], ch, fmt, args. split; [constructor|]. split; [reflexivity|]. split; [reflexivity|]. cbn [In]. intuition congruence.
Qed.

Lemma send_ok : forall c d fmt args m, R c d ->
  match send c fmt args m with
  | Ok (c', b) => exists d', follows1 d (Send fmt args m) (Rc b) d' /\ R c' d'
  | Fault _ => ~ proper (Send fmt args m)
  end.
Proof.
  intros [p|] [d|] fmt args m H; cbn [R] in H; try contradiction; cbn [send].
  2:{ exists None. cbn [follows1 R]. auto. }
  destruct H as (H1 & H2 & H3).
  assert (NO : open d = false \/ In false m -> forall c', c' = Some p -> exists d', follows1 (Some d) (Send fmt args m) (Rc false) d' /\ R c' d').
  { intros W c' ->. exists (Some d). cbn [follows1 R]. split; [left; tauto|auto]. }
  destruct (subscribed p) eqn:SU; cbn [negb]; [|apply NO; [left; congruence|reflexivity]].
  pose proof (grow_in (length (list_ p)) (room p) m) as G. destruct (grow _ _ m) as [[rm m1]|]; [|apply NO; auto].
  destruct (alloc m1) as [b m2] eqn:A. destruct (alloc_in _ _ _ A) as [A1 A2]. cbn [list_ handler subscribed]. destruct b.
  - set (p1 := mkP _ _ _ _). pose proof (fill_ok fmt args p1 6 0 m2 (list_ p) [] eq_refl) as F. destruct (fill p1 6 0 fmt args m2) as [[p' []]|f]; cbn [rbind fst snd filled] in *.
    + destruct F as (xs & S & L & HH & SS). cbn [p1 handler subscribed] in HH, SS. exists (Some (mkC (waiting d ++ [map meaning xs]) (cb d) true)). cbn [follows1 R waiting cb open]. split.
      * right. split; [congruence|]. split; [reflexivity|]. exists xs. auto.
      * rewrite L, <- H1. cbn [app]. repeat split; congruence.
    + destruct F as (L & HH & SS & W). cbn [p1 handler subscribed] in HH, SS. exists (Some d). cbn [follows1 R]. split; [left; tauto|repeat split; congruence].
    + destruct F as [_ F]. exact F.
  - exists (Some d). cbn [follows1 R list_ handler subscribed]. rewrite removelast_last. split; [left; tauto|]. repeat split; congruence.
Qed.

(** ** Receiving *)

Lemma items_ok : forall vs a m, match items vs a m with Some (x, m') => x = a ++ vs /\ (In false m' -> In false m) | None => In false m end.
Proof.
  induction vs as [|v vs IH]; intros a m; cbn [items]; [rewrite app_nil_r; auto|].
  destruct (alloc m) as [b m1] eqn:A. destruct (alloc_in _ _ _ A) as [A1 A2]. destruct b; [|auto].
  assert (K : forall m2, (In false m2 -> In false m) -> match items vs (a ++ [v]) m2 with Some (x, m') => x = a ++ v :: vs /\ (In false m' -> In false m) | None => In false m end).
  { intros m2 I. specialize (IH (a ++ [v]) m2). destruct (items vs (a ++ [v]) m2) as [[x m']|]; [|auto]. rewrite <- app_assoc in IH. cbn [app] in IH. tauto. }
  destruct v as [i|r|s]; try (apply K; exact A2). destruct (alloc m1) as [b m2] eqn:B. destruct (alloc_in _ _ _ B) as [B1 B2]. destruct b; [apply K; tauto|tauto].
Qed.

Lemma messages_ok : forall l a m, match messages l a m with Some x => x = a ++ l | None => In false m end.
Proof.
  induction l as [|vs l IH]; intros a m; cbn [messages]; [now rewrite app_nil_r|].
  destruct (alloc m) as [b m1] eqn:A. destruct (alloc_in _ _ _ A) as [A1 A2]. destruct b; [|auto].
  destruct (alloc m1) as [b m2] eqn:B. destruct (alloc_in _ _ _ B) as [B1 B2]. destruct b; [|auto].
  pose proof (items_ok vs [] m2) as I. destruct (items vs [] m2) as [[x m3]|]; [|auto]. destruct I as [-> I]. cbn [app].
  specialize (IH (a ++ [vs]) m3). destruct (messages l (a ++ [vs]) m3); [|auto]. rewrite <- app_assoc in IH. exact IH.
Qed.

Lemma messages_all : forall l a, messages l a [] = Some (a ++ l).
Proof.
  intros l a. pose proof (messages_ok l a []) as H. destruct (messages l a []); [now rewrite H|destruct H].
Qed.

Lemma recv_ok : forall c d m, R c d -> exists d', follows1 d (Recv m) (Script (snd (recv c m))) d' /\ R (fst (recv c m)) d'.
Proof.
  intros [p|] [d|] m H; cbn [R] in H; try contradiction; cbn [recv].
  - destruct H as (H1 & H2 & H3). destruct (alloc m) as [b m1] eqn:A. destruct (alloc_in _ _ _ A) as [A1 A2]. destruct b.
    + pose proof (messages_ok (list_ p) [] m1) as M. destruct (messages (list_ p) [] m1) as [l|]; cbn [fst snd app] in *.
      * exists (Some (mkC [] (cb d) (open d))). cbn [follows1 R list_ handler subscribed waiting cb open]. split; [right; rewrite M, H1; auto|auto].
      * exists (Some d). cbn [follows1 R]. tauto.
    + exists (Some d). cbn [fst snd follows1 R]. tauto.
  - cbn [fst snd]. exists None. cbn [follows1 R]. destruct m as [|[] m]; cbn [alloc fst]; auto. split; [|exact Logic.I]. left. split; [reflexivity|]. split; [now left|reflexivity].
Qed.

(** ** Histories *)

Lemma obtain_ok : forall c d f, R c d ->
  match obtain c f with
  | Ok (Some p) => R (Some p) (Some (match d with Some d => d | None => mkC [] None false end))
  | Ok None => f <> None
  | Fault _ => f = Some ForNode
  end.
Proof.
  intros [p|] [d|] f H; cbn [R] in H; try contradiction; cbn [obtain]; [exact H|].
  destruct f as [[]|]; cbn [pipe_new register R list_ handler subscribed waiting cb open]; try discriminate; auto.
Qed.

Lemma step_ok : forall c d o, R c d ->
  match step c o with Ok (c', a) => exists d', follows1 d o a d' /\ R c' d' | Fault _ => ~ proper o end.
Proof.
  intros c d o H. destruct o as [f|f|m|v rc f|fmt args m|h f]; cbn [step].
  - pose proof (obtain_ok c d f H) as O. destruct (obtain c f) as [[p|]|e]; cbn [rbind].
    + set (now := match d with Some d => d | None => mkC [] None false end) in *. destruct O as (O1 & O2 & O3).
      exists (Some (mkC (waiting now) (cb now) true)). cbn [R with_flag list_ handler subscribed waiting cb open]. split; [|auto].
      destruct f as [[]|]; cbn [answers follows1]; fold now; auto. right. split; [reflexivity|]. split; [discriminate|]. now right.
    + exists d. cbn [follows1]. unfold lacks. split; [right; repeat split; auto|exact H].
    + cbn [proper]. intros N. contradiction.
  - destruct c as [p|], d as [d|]; cbn [R option_map] in *; try contradiction.
    + destruct H as (H1 & H2 & H3). exists (Some (mkC (waiting d) (cb d) false)). cbn [R with_flag list_ handler subscribed waiting cb open follows1]. split; [|auto].
      split; [|reflexivity]. destruct f as [[]|]; cbn [answers]; auto. right. split; [reflexivity|discriminate].
    + exists None. cbn [follows1]. split; [|auto]. split; [|reflexivity]. destruct f as [[]|]; cbn [answers]; auto. right. split; [reflexivity|discriminate].
  - destruct (recv_ok c d m H) as (d' & F & Q). destruct (recv c m) as [c' a]. exists d'. auto.
  - assert (ANS : forall b, exists r, (r = Error /\ lacks f \/ r <> Error) /\ (if answers f then Is b else Error) = r /\ (r <> Error -> r = Is b)).
    { intros b. destruct f as [[]|]; cbn [answers]; eexists; (split; [|split; [reflexivity|intros; tauto || reflexivity]]); try (right; discriminate). left. split; [reflexivity|discriminate]. }
    destruct c as [p|], d as [d|]; cbn [R] in *; try contradiction.
    + destruct H as (H1 & H2 & H3). destruct (handler p) as [h|] eqn:HP.
      * exists (Some d). cbn [follows1 R]. rewrite <- H2. split; [|auto]. split; [reflexivity|]. destruct (ANS (rc =? 0)%Z) as (r & A1 & <- & A2). eexists. split; [exact A1|]. split; [reflexivity|exact A2].
      * exists (Some d). cbn [follows1 R]. rewrite <- H2. split; [|auto]. split; [reflexivity|]. destruct (ANS true) as (r & A1 & <- & A2). eexists. split; [exact A1|]. split; [reflexivity|exact A2].
    + exists None. cbn [follows1 R]. split; [|auto]. split; [reflexivity|]. destruct (ANS false) as (r & A1 & <- & A2). eexists. split; [exact A1|]. split; [reflexivity|exact A2].
  - pose proof (send_ok c d fmt args m H) as S. destruct (send c fmt args m) as [[c' b]|]; cbn [rbind fst snd]; exact S.
  - pose proof (obtain_ok c d f H) as O. destruct (obtain c f) as [[p|]|e]; cbn [rbind].
    + set (now := match d with Some d => d | None => mkC [] None false end) in *. destruct O as (O1 & O2 & O3).
      exists (Some (mkC (waiting now) h (open now))). cbn [R list_ handler subscribed waiting cb open follows1]. fold now. auto.
    + exists d. cbn [follows1]. unfold lacks. split; [right; repeat split; auto|exact H].
    + cbn [proper]. intros N. contradiction.
Qed.

Lemma run_ok : forall os c d, R c d ->
  match run c os with
  | Ok (c', outs) => exists d', follows d os outs d' /\ R c' d'
  | Fault _ => exists o, In o os /\ ~ proper o
  end.
Proof.
  induction os as [|o os IH]; intros c d H; cbn [run].
  - exists d. split; [reflexivity|exact H].
  - pose proof (step_ok c d o H) as S. destruct (step c o) as [[c1 a]|f]; cbn [rbind fst snd].
    + destruct S as (d1 & F1 & H1). specialize (IH c1 d1 H1). destruct (run c1 os) as [[c2 outs]|f]; cbn [rbind fst snd].
      * destruct IH as (d2 & F2 & H2). exists d2. cbn [follows]. eauto.
      * destruct IH as (o' & I & N). exists o'. split; [now right|exact N].
    + exists o. split; [now left|exact S].
Qed.

(** ** What was sent *)

Lemma says_unique : forall xs ys fmt args, says fmt args xs -> says fmt args ys -> map meaning xs = map meaning ys.
Proof.
  induction xs as [|x xs IH]; intros [|y ys] fmt args (F1 & E1 & r1 & A1) (F2 & E2 & r2 & A2); cbn [map app] in *; subst fmt; try discriminate; [reflexivity|].
  apply Forall_cons_iff in F1. apply Forall_cons_iff in F2. destruct F1 as [F1 G1], F2 as [F2 G2].
  pose proof (f_equal (@tl _) E2) as E3. cbn [tl] in E3. subst args.
  pose proof (f_equal (hd (AInt 0)) A2) as A3. pose proof (f_equal (@tl _) A2) as A4. cbn [hd tl] in A3, A4.
  f_equal.
  - destruct x as [i|s b|s|r], y as [j|t e|t|q]; cbn [argument meaning item_ok] in *; try discriminate; try congruence.
    f_equal. assert (Q : s ++ 0 :: b = t ++ 0 :: e) by congruence. apply (f_equal upto0) in Q. rewrite !upto0_end in Q by assumption. congruence.
  - apply (IH ys (map letter xs) (map argument xs ++ r1)); repeat split; eauto.
Qed.

Lemma follows_sent : forall os outs d d', follows (Some d) os outs (Some d') ->
  exists vs, all_sent os outs vs /\ waiting d ++ vs = flat_map got outs ++ waiting d'.
Proof.
  induction os as [|o os IH]; intros [|a outs] d d' F; cbn [follows] in F; try contradiction.
  - exists []. split; [constructor|]. assert (d' = d) by congruence. subst. cbn [flat_map app]. now rewrite app_nil_r.
  - destruct F as (d1 & F1 & F2).
    assert (S : exists e v, d1 = Some e /\ sent o a v /\ waiting d ++ v = got a ++ waiting e).
    { destruct o as [f|f|m|v rc f|fmt args m|h f]; cbn [follows1] in F1.
      - destruct F1 as [[-> ->]|(-> & _ & [->| ->])]; eexists; exists []; (split; [reflexivity|]); cbn [sent got waiting app]; rewrite app_nil_r; auto.
      - destruct F1 as [[->|[-> _]] ->]; eexists; exists []; (split; [reflexivity|]); cbn [sent got waiting app]; rewrite app_nil_r; auto.
      - destruct F1 as [(-> & _ & ->)|[-> ->]]; eexists; exists []; (split; [reflexivity|]); cbn [sent got waiting app]; rewrite app_nil_r; auto.
      - destruct F1 as (-> & r & RE & F1). eexists. exists []. split; [reflexivity|]. split; [reflexivity|]. rewrite app_nil_r.
        destruct (cb d); destruct F1 as [-> F1]; [reflexivity|]. destruct r; try reflexivity. specialize (F1 ltac:(discriminate)). discriminate.
      - destruct F1 as [(-> & -> & _)|(_ & -> & xs & S & ->)].
        + eexists. exists []. split; [reflexivity|]. cbn [sent got app]. rewrite app_nil_r. auto.
        + eexists. exists [map meaning xs]. split; [reflexivity|]. cbn [sent got app waiting]. split; [|reflexivity]. eauto.
      - destruct F1 as [[-> ->]|(-> & _ & ->)]; eexists; exists []; (split; [reflexivity|]); cbn [sent got waiting app]; rewrite app_nil_r; auto. }
    destruct S as (e & v & -> & S1 & S2). destruct (IH outs e d' F2) as (vs & S3 & S4). exists (v ++ vs). split; [now constructor|].
    cbn [flat_map]. rewrite app_assoc, S2, <- !app_assoc. f_equal. exact S4.
Qed.

Lemma sent_unique : forall os outs vs, all_sent os outs vs -> forall ws, all_sent os outs ws -> vs = ws.
Proof.
  induction 1 as [|o a os outs v vs S H IH]; intros ws W; inversion W as [|? ? ? ? w ws' SW HW]; subst; [reflexivity|].
  f_equal; [|now apply IH]. destruct o, a as [| |[]]; cbn [sent] in *; try congruence.
  destruct S as (xs & S & ->), SW as (ys & SW & ->). f_equal. exact (says_unique _ _ _ _ S SW).
Qed.

Lemma open_stays : forall os outs d d', follows (Some d) os outs d' -> exists e, d' = Some e.
Proof.
  induction os as [|o os IH]; intros [|a outs] d d' F; cbn [follows] in F; try contradiction; [eauto|].
  destruct F as (d1 & F1 & F2). assert (E : exists e, d1 = Some e).
  { destruct o as [f|f|m|v rc f|fmt args m|h f]; cbn [follows1] in F1.
    - destruct F1 as [[-> ->]|(-> & _ & [->| ->])]; eauto.
    - destruct F1 as [_ ->]; eauto.
    - destruct F1 as [(-> & _ & ->)|[-> ->]]; eauto.
    - destruct F1 as [-> _]; eauto.
    - destruct F1 as [(_ & -> & _)|(_ & _ & xs & _ & ->)]; eauto.
    - destruct F1 as [[-> ->]|(-> & _ & ->)]; eauto. }
  destruct E as [e ->]. eauto.
Qed.

Lemma delivers : forall os c outs, run None (Subscribe None :: os) = Ok (c, outs) -> forall vs, all_sent (Subscribe None :: os) outs vs ->
  exists rest c', vs = flat_map got outs ++ rest /\ step c (Recv []) = Ok (c', Script (Got rest)).
Proof.
  intros os c outs E vs V. pose proof (run_ok (Subscribe None :: os) None None Logic.I) as H. rewrite E in H. destruct H as (d' & F & H).
  destruct outs as [|a outs]; [destruct F|]. cbn [follows] in F. destruct F as (d1 & F1 & F2). cbn [follows1] in F1.
  destruct F1 as [[-> ->]|(_ & N & _)]; [|now destruct N].
  destruct (open_stays _ _ _ _ F2) as [e ->]. destruct (follows_sent _ _ _ _ F2) as (ws & S1 & S2). cbn [waiting app] in S2.
  assert (vs = [] ++ ws) by (eapply sent_unique; [exact V|constructor; [reflexivity|exact S1]]). subst vs.
  destruct c as [p|]; [|destruct H]. destruct H as (H1 & _). exists (waiting e). cbn [app step recv alloc]. rewrite messages_all. cbn [app].
  eexists. split; [exact S2|]. rewrite H1. reflexivity.
Qed.

Lemma sent_some : forall os outs c, run None (Subscribe None :: os) = Ok (c, outs) -> exists vs, all_sent (Subscribe None :: os) outs vs.
Proof.
  intros os outs c E. pose proof (run_ok (Subscribe None :: os) None None Logic.I) as H. rewrite E in H. destruct H as (d' & F & _).
  destruct outs as [|a outs]; [destruct F|]. cbn [follows] in F. destruct F as (d1 & F1 & F2). cbn [follows1] in F1.
  destruct F1 as [[-> ->]|(_ & N & _)]; [|now destruct N].
  destruct (open_stays _ _ _ _ F2) as [e ->]. destruct (follows_sent _ _ _ _ F2) as (ws & S1 & _). exists ([] ++ ws). constructor; [reflexivity|exact S1].
Qed.

(** * Garbage collection: proofs *)

From Coq Require Import List NArith Bool Lia PeanoNat.
From Coq Require Import ZifyBool ZifyNat ZifyN.
From Verif Require Import Base GcModel GcSpec.
Import ListNotations.
Local Open Scope N_scope.

Lemma elem_in x l : elem x l = true <-> In x l.
Proof.
  unfold elem. rewrite existsb_exists. split.
  - intros (y & H & E). apply N.eqb_eq in E. now subst.
  - intros H. exists x. split; [exact H|apply N.eqb_refl].
Qed.
Lemma elem_out x l : elem x l = false <-> ~ In x l.
Proof. rewrite <- elem_in. destruct (elem x l); split; congruence. Qed.

Lemma del_in x y l : In y (del x l) <-> In y l /\ y <> x.
Proof. unfold del. rewrite filter_In. split; intros [A B]; split; auto. - apply negb_true_iff, N.eqb_neq in B. congruence. - apply negb_true_iff, N.eqb_neq. congruence. Qed.

Lemma NoDup_filter' {A} (f : A -> bool) l : NoDup l -> NoDup (filter f l).
Proof. apply NoDup_filter. Qed.

Record Rest (g : gc) : Prop := mkRest {
  r_nodup : NoDup (g_items g);
  r_zero : ~ In 0 (g_items g);
  r_proc : g_proc g = [];
  r_clear : forall x, In x (g_items g) -> credit (g_rec g x) = false /\ inc (g_rec g x) = false /\ visited (g_rec g x) = false
}.

Lemma chain_all_spec l : forall p, NoDup (p ++ l) -> chain_all l p = p ++ l.
Proof.
  induction l as [|x l IH]; intros p H; cbn [chain_all]; [now rewrite app_nil_r|].
  assert (E : elem x p = false). { apply elem_out. intros I. apply NoDup_remove_2 in H. apply H. apply in_or_app. now left. }
  rewrite E, IH; rewrite <- app_assoc; [reflexivity|exact H].
Qed.

(** ** Marking *)

Section Mark.
Variable L : list N.
Variable members : N -> list N.
Hypothesis ND : NoDup L.
Hypothesis NZ : ~ In 0 L.
Hypothesis CL : forall x y, In x L -> In y (members x) -> In y L.

Definition give (r : item) : item := mkItem (suspected r) true (inc r) (visited r).

Lemma collect_adds_spec : forall l g, g_items g = L -> g_proc g = L -> (forall x, In x l -> x <> 0 -> In x L) ->
  exists g', collect_adds g l = Some g' /\ g_items g' = L /\ g_others g' = g_others g /\ g_proc g' = L /\
  forall y, In y L -> g_rec g' y = if elem y l then give (g_rec g y) else g_rec g y.
Proof.
  induction l as [|x l IH]; intros g GI GP HL; cbn [collect_adds].
  - exists g. repeat split; auto.
  - unfold collect_add. destruct (N.eqb_spec x 0) as [Z|Z].
    + cbn [obind]. destruct (IH g GI GP) as (g' & E & A & B & C & D); [intros y Hy; apply HL; now right|].
      exists g'. repeat split; auto. intros y Hy. rewrite D by exact Hy. unfold elem. cbn [existsb].
      destruct (N.eqb_spec y x) as [->|]; [congruence|reflexivity].
    + assert (IX : In x L) by (apply HL; [now left|exact Z]).
      assert (K : known g x = true) by (unfold known; apply orb_true_iff; left; apply elem_in; congruence).
      rewrite K. assert (EP : elem x (g_proc g) = true) by (apply elem_in; congruence). rewrite EP. cbn [obind].
      set (g1 := rec_set g x _). destruct (IH g1) as (g' & E & A & B & C & D); [exact GI|exact GP|intros y Hy; apply HL; now right|].
      exists g'. repeat split; auto. intros y Hy. rewrite D by exact Hy. unfold elem. cbn [existsb]. fold (elem y l).
      unfold g1, rec_set. cbn [g_rec]. destruct (N.eqb_spec x y) as [->|ne].
      * rewrite N.eqb_refl. cbn [orb]. destruct (elem y l); reflexivity.
      * replace (y =? x) with false by (symmetry; apply N.eqb_neq; congruence). reflexivity.
Qed.

Variable roots : list N.
Variable rec0 : N -> item.

Definition must (x : N) : Prop := stays L (fun x => suspected (rec0 x) = true) members roots x.

Definition live (g : gc) (x : N) : bool := negb (suspected (g_rec g x) && negb (credit (g_rec g x))).

Record Marking (g : gc) : Prop := mkM {
  m_items : g_items g = L;
  m_proc : g_proc g = L;
  m_susp : forall x, In x L -> suspected (g_rec g x) = suspected (rec0 x);
  m_inc : forall x, In x L -> inc (g_rec g x) = false;
  m_credit : forall x, In x L -> credit (g_rec g x) = true -> must x;
  m_root : forall x, In x L -> In x roots -> credit (g_rec g x) = true;
  m_visit : forall x y, In x L -> visited (g_rec g x) = true -> In y (members x) -> credit (g_rec g y) = true;
  m_live : forall x, In x L -> visited (g_rec g x) = true -> live g x = true
}.
Definition seen (g : gc) : nat := length (filter (fun x => visited (g_rec g x)) L).

Lemma live_must g x : Marking g -> In x L -> live g x = true -> must x.
Proof.
  intros M I H. unfold live in H. apply negb_true_iff, andb_false_iff in H. destruct H as [H|H].
  - rewrite (m_susp _ M x I) in H. apply stays_trusted; [exact I|congruence].
  - apply negb_false_iff in H. eapply m_credit; eauto.
Qed.

Lemma count_mono (f h : N -> bool) l : (forall x, In x l -> f x = true -> h x = true) -> (length (filter f l) <= length (filter h l))%nat.
Proof.
  induction l as [|x l IH]; intros H; [constructor|]. cbn [filter]. assert (IHl : (length (filter f l) <= length (filter h l))%nat) by (apply IH; intros y Hy; apply H; now right).
  destruct (f x) eqn:F; [rewrite (H x (or_introl eq_refl) F); cbn [length]; lia|]. destruct (h x); cbn [length]; lia.
Qed.
Lemma count_strict (f h : N -> bool) l x : (forall x, In x l -> f x = true -> h x = true) -> In x l -> f x = false -> h x = true ->
  (length (filter f l) < length (filter h l))%nat.
Proof.
  intros H I F G. induction l as [|y l IH]; [contradiction|]. cbn [filter].
  assert (M : (length (filter f l) <= length (filter h l))%nat) by (apply count_mono; intros z Hz; apply H; now right).
  destruct I as [->|I].
  - rewrite F, G. cbn [length]. lia.
  - assert (K : (length (filter f l) < length (filter h l))%nat) by (apply IH; [intros z Hz; apply H; now right|exact I]).
    destruct (f y) eqn:FY; [rewrite (H y (or_introl eq_refl) FY); cbn [length]; lia|]. destruct (h y); cbn [length]; lia.
Qed.

Lemma visit_one g x : Marking g -> In x L -> live g x = true -> visited (g_rec g x) = false ->
  exists g1, collect_adds g (members x) = Some g1 /\ g_others g1 = g_others g /\
    let g2 := rec_set g1 x (let r := g_rec g1 x in mkItem (suspected r) (credit r) (inc r) true) in
    Marking g2 /\ (seen g < seen g2)%nat.
Proof.
  intros M I LV NV. destruct (collect_adds_spec (members x) g (m_items _ M) (m_proc _ M)) as (g1 & E & A & B & C & D).
  { intros y Hy _. eapply CL; eauto. }
  exists g1. split; [exact E|]. split; [exact B|]. cbn zeta. set (g2 := rec_set _ _ _).
  assert (R : forall y, In y L -> suspected (g_rec g2 y) = suspected (g_rec g y) /\ inc (g_rec g2 y) = inc (g_rec g y) /\
    credit (g_rec g2 y) = credit (g_rec g y) || elem y (members x) /\ visited (g_rec g2 y) = visited (g_rec g y) || (x =? y)).
  { intros y Hy. unfold g2, rec_set. cbn [g_rec]. destruct (N.eqb_spec x y) as [->|ne]; rewrite D by exact Hy; destruct (elem y (members _)); cbn [suspected inc credit visited give];
      rewrite ?orb_true_r, ?orb_false_r; auto. }
  split.
  - constructor; auto.
    + intros y Hy. destruct (R y Hy) as (R1 & _). rewrite R1. now apply m_susp.
    + intros y Hy. destruct (R y Hy) as (_ & R2 & _). rewrite R2. now apply m_inc.
    + intros y Hy. destruct (R y Hy) as (_ & _ & R3 & _). rewrite R3, orb_true_iff. intros [H|H]; [eapply m_credit; eauto|].
      apply elem_in in H. eapply stays_member; [|exact H]. eapply live_must; eauto.
    + intros y Hy Hr. destruct (R y Hy) as (_ & _ & R3 & _). rewrite R3, (m_root _ M y Hy Hr). reflexivity.
    + intros y z Hy Hv Hz. assert (ZL : In z L) by (eapply CL; eauto). destruct (R z ZL) as (_ & _ & R3 & _). rewrite R3.
      destruct (R y Hy) as (_ & _ & _ & R4). rewrite R4 in Hv. apply orb_true_iff in Hv. destruct Hv as [Hv|Hv].
      * rewrite (m_visit _ M y z Hy Hv Hz). reflexivity.
      * apply N.eqb_eq in Hv. subst y. apply elem_in in Hz. rewrite Hz. apply orb_true_r.
    + intros y Hy Hv. destruct (R y Hy) as (R1 & _ & R3 & R4). rewrite R4 in Hv. apply orb_true_iff in Hv.
      assert (LY : live g y = true) by (destruct Hv as [Hv|Hv]; [now apply m_live|apply N.eqb_eq in Hv; now subst y]).
      unfold live in *. rewrite R1, R3. destruct (suspected (g_rec g y)); [|reflexivity]. destruct (credit (g_rec g y)); [reflexivity|discriminate].
  - unfold seen. apply (count_strict _ _ _ x); auto.
    + intros y Hy V. destruct (R y Hy) as (_ & _ & _ & R4). now rewrite R4, V.
    + destruct (R x I) as (_ & _ & _ & R4). rewrite R4, N.eqb_refl. apply orb_true_r.
Qed.

Lemma mark_pass_spec : forall fuel g i done, Marking g -> (length L + 1 <= fuel + i)%nat -> (i <= length L)%nat ->
  exists g' d, mark_pass fuel members g i done = Some (g', d) /\ Marking g' /\ g_others g' = g_others g /\ (seen g <= seen g')%nat /\
  (d = true -> done = true /\ g' = g /\ forall j x, (i <= j)%nat -> nth_error L j = Some x -> live g x = true -> visited (g_rec g x) = true) /\
  (d = false -> done = true -> (seen g < seen g')%nat).
Proof.
  induction fuel as [|f IH]; intros g i done M F B; [lia|]. cbn [mark_pass]. rewrite (m_proc _ M).
  destruct (nth_error L i) as [x|] eqn:E.
  - assert (I : In x L) by (eapply nth_error_In; eauto). assert (B1 : (i < length L)%nat) by (apply nth_error_Some; congruence).
    destruct ((suspected (g_rec g x) && negb (credit (g_rec g x))) || visited (g_rec g x)) eqn:T.
    + destruct (IH g (S i) done M ltac:(lia) ltac:(lia)) as (g' & d & R & M' & O & S1 & D1 & D2). exists g', d. split; [exact R|]. split; [exact M'|]. split; [exact O|]. split; [exact S1|]. split; [|exact D2].
      intros H. destruct (D1 H) as (D4 & D5 & D3). split; [exact D4|]. split; [exact D5|]. intros j y Hj Hy LV. destruct (Nat.eq_dec i j) as [<-|ne]; [|apply (D3 j); auto; lia].
      assert (y = x) by congruence. subst y. unfold live in LV. apply negb_true_iff in LV. rewrite LV in T. exact T.
    + apply orb_false_iff in T. destruct T as [T1 T2]. assert (LV : live g x = true) by (unfold live; now rewrite T1).
      destruct (visit_one g x M I LV T2) as (g1 & R1 & O1 & M2 & S2). rewrite R1. cbn [obind]. cbn zeta in M2, S2. cbn zeta.
      set (g2 := rec_set _ _ _) in *. destruct (IH g2 (S i) false M2 ltac:(lia) ltac:(lia)) as (g' & d & R & M' & O & S3 & D1 & D2).
      exists g', d. split; [exact R|]. split; [exact M'|]. split; [rewrite O; exact O1|]. split; [lia|]. split; [|intros; lia].
      intros H. destruct (D1 H) as [X _]. discriminate.
  - exists g, done. split; [reflexivity|]. split; [exact M|]. split; [reflexivity|]. split; [lia|]. split.
    + intros H. split; [exact H|]. split; [reflexivity|]. intros j x Hj Hx. apply nth_error_None in E.
      assert (j < length L)%nat by (apply nth_error_Some; congruence). lia.
    + intros -> H. discriminate.
Qed.

Lemma seen_le g : (seen g <= length L)%nat.
Proof. unfold seen. clear. induction L as [|x l IH]; [constructor|]. cbn [filter]. destruct (visited _); cbn [length]; lia. Qed.

Lemma mark_spec : forall fuel g, Marking g -> (length L + 1 <= fuel + seen g)%nat -> (1 <= fuel)%nat ->
  exists g', mark fuel members g = Some g' /\ Marking g' /\ g_others g' = g_others g /\
  forall x, In x L -> live g' x = true -> visited (g_rec g' x) = true.
Proof.
  induction fuel as [|f IH]; intros g M F P; [lia|]. cbn [mark].
  destruct (mark_pass_spec (S (length (g_items g) + length (g_others g))) g 0 true M) as (g1 & d & R & M1 & O & S1 & D1 & D2).
  { rewrite (m_items _ M). lia. } { lia. }
  rewrite R. cbn [obind]. destruct d.
  - destruct (D1 eq_refl) as (_ & -> & D3). exists g. split; [reflexivity|]. split; [exact M|]. split; [reflexivity|]. intros x I LV. apply In_nth_error in I. destruct I as (j & Hj).
    apply (D3 j); auto. lia.
  - specialize (D2 eq_refl eq_refl). pose proof (seen_le g1) as SL. destruct (IH g1 M1 ltac:(lia) ltac:(lia)) as (g' & E & M' & O' & D). exists g'. split; [exact E|]. split; [exact M'|]. split; [congruence|exact D].
Qed.

Lemma marked g : Marking g -> (forall x, In x L -> live g x = true -> visited (g_rec g x) = true) ->
  forall x, In x L -> (live g x = true <-> must x).
Proof.
  intros M D x I. split; [intros H; eapply live_must; eauto|].
  intros H. enough (In x L /\ live g x = true) by tauto. clear I. unfold must in H. induction H as [x I H|x I H|x y H IH Hy].
  - split; [exact I|]. unfold live. now rewrite (m_root _ M x I H), andb_false_r.
  - split; [exact I|]. unfold live. rewrite (m_susp _ M x I). destruct (suspected (rec0 x)); [congruence|reflexivity].
  - destruct IH as [I LV]. pose proof (CL x y I Hy) as IY. split; [exact IY|]. specialize (D x I LV).
    unfold live. now rewrite (m_visit _ M x y I D Hy), andb_false_r.
Qed.

End Mark.

(** ** Picking the garbage *)

Definition junk (r : item) : bool := negb (inc r || credit r || negb (suspected r)).

Lemma pick_spec : forall l g keep g' k, NoDup l -> pick l g keep = (g', k) ->
  k = keep ++ filter (fun x => junk (g_rec g x)) l /\ g_items g' = g_items g /\ g_others g' = g_others g /\ g_proc g' = g_proc g /\
  forall x, g_rec g' x = if elem x l && negb (junk (g_rec g x)) then mkItem (suspected (g_rec g x)) false false false else g_rec g x.
Proof.
  induction l as [|x l IH]; intros g keep g' k ND H; cbn [pick] in H.
  - injection H as <- <-. rewrite app_nil_r. repeat split; auto.
  - apply NoDup_cons_iff in ND. destruct ND as [NI ND].
    assert (FE : forall r, filter (fun y => junk (if x =? y then r else g_rec g y)) l = filter (fun y => junk (g_rec g y)) l).
    { intros r. apply filter_ext_in. intros y Hy. destruct (N.eqb_spec x y) as [->|]; [contradiction|reflexivity]. }
    cbn [filter]. unfold elem. cbn [existsb]. destruct (inc (g_rec g x) || credit (g_rec g x) || negb (suspected (g_rec g x))) eqn:J.
    + apply IH in H; [|exact ND]. destruct H as (K & A & B & C & D). unfold rec_set in K. cbn [g_rec] in K. rewrite FE in K.
      assert (JX : junk (g_rec g x) = false) by (unfold junk; now rewrite J). rewrite JX. repeat split; auto.
      intros y. rewrite D. unfold rec_set. cbn [g_rec]. fold (elem y l). destruct (N.eqb_spec x y) as [->|ne].
      * rewrite N.eqb_refl, JX. cbn [orb negb andb]. apply elem_out in NI. rewrite NI. reflexivity.
      * replace (y =? x) with false by (symmetry; apply N.eqb_neq; congruence). reflexivity.
    + apply IH in H; [|exact ND]. destruct H as (K & A & B & C & D). assert (JX : junk (g_rec g x) = true) by (unfold junk; now rewrite J). rewrite JX.
      rewrite <- app_assoc in K. repeat split; auto. intros y. rewrite D. fold (elem y l). destruct (N.eqb_spec y x) as [->|ne]; [|reflexivity].
      rewrite JX. now rewrite !andb_false_r.
Qed.

(** ** Cleaning *)

Lemma NoDup_snoc {A} (l : list A) x : NoDup l -> ~ In x l -> NoDup (l ++ [x]).
Proof. intros H N. apply (NoDup_Add (Add_app x l [])). rewrite app_nil_r. auto. Qed.

Lemma clean_list_spec L : forall l g, g_items g = L -> (forall y, In y l -> In y L) -> NoDup (g_proc g) ->
  exists g' kept, clean_list g l = Some (g', kept) /\ g_items g' = L /\ g_others g' = g_others g /\ g_proc g' = g_proc g ++ kept /\
  NoDup (g_proc g ++ kept) /\ incl kept l /\ incl l (g_proc g ++ kept) /\
  forall y, g_rec g' y = if elem y kept then mkItem (suspected (g_rec g y)) (credit (g_rec g y)) true (visited (g_rec g y)) else g_rec g y.
Proof.
  induction l as [|x l IH]; intros g GI HL ND; cbn [clean_list].
  - exists g, []. rewrite app_nil_r. repeat split; auto; intros y [].
  - unfold clean_add. assert (K : known g x = true) by (unfold known; apply orb_true_iff; left; apply elem_in; rewrite GI; apply HL; now left). rewrite K.
    destruct (elem x (g_proc g)) eqn:E; cbn [obind].
    + destruct (IH g GI) as (g' & kept & R & A & B & C & D & E1 & E2 & F); [intros y Hy; apply HL; now right|exact ND|].
      rewrite R. cbn [obind]. exists g', kept. repeat split; auto; [now apply incl_tl|]. intros y [<-|Hy]; [apply in_or_app; left; now apply elem_in|auto].
    + apply elem_out in E. set (g1 := rec_set _ _ _). assert (ND1 : NoDup (g_proc g1)) by (apply NoDup_snoc; auto).
      destruct (IH g1 GI) as (g' & kept & R & A & B & C & D & E1 & E2 & F); [intros y Hy; apply HL; now right|exact ND1|].
      change (g_proc g1) with (g_proc g ++ [x]) in *. rewrite R. cbn [obind]. exists g', (x :: kept). split; [reflexivity|].
      rewrite <- app_assoc in C, D, E2. cbn [app] in C, D, E2. repeat split; auto.
      * intros y [<-|Hy]; [now left|right; auto].
      * intros y [<-|Hy]; [apply in_or_app; right; now left|auto].
      * intros y. rewrite F. unfold g1, rec_set, with_proc, elem. cbn [g_rec existsb]. fold (elem y kept). destruct (N.eqb_spec x y) as [->|ne].
        -- rewrite N.eqb_refl. cbn [orb suspected credit visited]. destruct (elem y kept); reflexivity.
        -- replace (y =? x) with false by (symmetry; apply N.eqb_neq; congruence). reflexivity.
Qed.

Lemma next_in_spec pre x post : NoDup (pre ++ x :: post) -> next_in (pre ++ x :: post) x = hd_error post.
Proof.
  induction pre as [|y pre IH]; intros H; cbn [app next_in].
  - now rewrite N.eqb_refl.
  - apply NoDup_cons_iff in H. destruct H as [NI H]. destruct (N.eqb_spec x y) as [->|ne]; [|auto].
    exfalso. apply NI. apply in_or_app. right. now left.
Qed.

Section Sweep.
Variable L : list N.
Variable m0 : N -> list N.
Hypothesis CL : forall x y, In x L -> In y (m0 x) -> In y L.
Variable rec0 : N -> item.
Variable G : list N.

(** [pre] has been searched, [post] has not. *)
Record Sweeping (g : gc) (m : N -> list N) (pre post : list N) : Prop := mkSw {
  w_items : g_items g = L;
  w_proc : g_proc g = pre ++ post;
  w_nodup : NoDup (pre ++ post);
  w_in : incl (pre ++ post) L;
  w_kept : pre ++ post = G ++ flat_map m pre;
  w_sub : forall x, incl (m x) (m0 x);
  w_same : forall x, ~ In x pre -> m x = m0 x;
  w_all : forall x, In x pre -> incl (m0 x) (pre ++ post);
  w_susp : forall x, suspected (g_rec g x) = suspected (rec0 x);
  w_credit : forall x, credit (g_rec g x) = credit (rec0 x);
  w_inc : forall x, inc (g_rec g x) = inc (rec0 x) || elem x (flat_map m pre);
  w_visited : forall x, visited (g_rec g x) = visited (rec0 x) || elem x pre;
  w_from : forall x, In x (pre ++ post) -> exists y, In y G /\ from m0 y x
}.

Hypothesis V0 : forall x, In x L -> visited (rec0 x) = false.

Lemma sweep_one g m pre x post : Sweeping g m pre (x :: post) -> exists g1 kept, clean_list g (m x) = Some (g1, kept) /\ g_others g1 = g_others g /\
  let g2 := rec_set g1 x (let r := g_rec g1 x in mkItem (suspected r) (credit r) (inc r) true) in
  Sweeping g2 (set_members m x kept) (pre ++ [x]) (post ++ kept).
Proof.
  intros W. pose proof (w_nodup _ _ _ _ W) as ND. pose proof (w_proc _ _ _ _ W) as WP.
  assert (NX : ~ In x pre). { intros H. apply NoDup_remove_2 in ND. apply ND. apply in_or_app. now left. }
  assert (IX : In x L). { apply (w_in _ _ _ _ W). apply in_or_app. right. now left. }
  destruct (clean_list_spec L (m x) g (w_items _ _ _ _ W)) as (g1 & kept & R & A & B & C & D & E1 & E2 & F).
  { intros y Hy. apply (CL x); [exact IX|]. now apply (w_sub _ _ _ _ W). } { rewrite WP. exact ND. }
  exists g1, kept. split; [exact R|]. split; [exact B|]. cbn zeta. rewrite WP in *. set (g2 := rec_set _ _ _).
  assert (RE : (pre ++ x :: post) ++ kept = (pre ++ [x]) ++ post ++ kept) by (rewrite <- !app_assoc; reflexivity).
  assert (FM : flat_map (set_members m x kept) pre = flat_map m pre).
  { clear - NX. induction pre as [|y pre IH]; [reflexivity|]. cbn [flat_map]. rewrite IH by (intros H; apply NX; now right). f_equal.
    unfold set_members. destruct (N.eqb_spec x y) as [->|]; [|reflexivity]. exfalso. apply NX. now left. }
  assert (FX : flat_map (set_members m x kept) (pre ++ [x]) = flat_map m pre ++ kept).
  { rewrite flat_map_app, FM. cbn [flat_map]. unfold set_members. now rewrite N.eqb_refl, app_nil_r. }
  constructor.
  - exact A.
  - unfold g2. cbn [rec_set g_proc]. rewrite C. exact RE.
  - rewrite <- RE. exact D.
  - rewrite <- RE. intros y Hy. apply in_app_or in Hy. destruct Hy as [Hy|Hy]; [now apply (w_in _ _ _ _ W)|]. apply (CL x); [exact IX|]. apply (w_sub _ _ _ _ W). auto.
  - rewrite <- RE, FX, (w_kept _ _ _ _ W). now rewrite <- app_assoc.
  - intros y. unfold set_members. destruct (N.eqb_spec x y) as [->|]; [|apply (w_sub _ _ _ _ W)]. intros z Hz. apply (w_sub _ _ _ _ W). auto.
  - intros y Hy. unfold set_members. destruct (N.eqb_spec x y) as [->|]; [exfalso; apply Hy; apply in_or_app; right; now left|].
    apply (w_same _ _ _ _ W). intros H. apply Hy. apply in_or_app. now left.
  - intros y Hy. rewrite <- RE. apply in_app_or in Hy. destruct Hy as [Hy|[<-|[]]].
    + intros z Hz. apply in_or_app. left. eapply (w_all _ _ _ _ W); eauto.
    + rewrite <- (w_same _ _ _ _ W x NX). exact E2.
  - intros y. unfold g2, rec_set. cbn [g_rec]. destruct (N.eqb_spec x y) as [->|]; cbn [suspected]; rewrite F; destruct (elem _ kept); cbn [suspected]; apply (w_susp _ _ _ _ W).
  - intros y. unfold g2, rec_set. cbn [g_rec]. destruct (N.eqb_spec x y) as [->|]; cbn [credit]; rewrite F; destruct (elem _ kept); cbn [credit]; apply (w_credit _ _ _ _ W).
  - intros y. rewrite FX. assert (EA : elem y (flat_map m pre ++ kept) = elem y (flat_map m pre) || elem y kept) by (unfold elem; apply existsb_app).
    rewrite EA. unfold g2, rec_set. cbn [g_rec]. destruct (N.eqb_spec x y) as [->|]; cbn [inc]; rewrite F; destruct (elem _ kept); cbn [inc]; rewrite ?orb_true_r, ?orb_false_r; auto; apply (w_inc _ _ _ _ W).
  - intros y. assert (EA : elem y (pre ++ [x]) = elem y pre || (y =? x)) by (unfold elem; rewrite existsb_app; cbn [existsb]; now rewrite orb_false_r).
    rewrite EA. unfold g2, rec_set. cbn [g_rec]. destruct (N.eqb_spec x y) as [->|ne]; cbn [visited].
    + rewrite N.eqb_refl, !orb_true_r. reflexivity.
    + replace (y =? x) with false by (symmetry; apply N.eqb_neq; congruence). rewrite F, orb_false_r. destruct (elem _ kept); cbn [visited]; apply (w_visited _ _ _ _ W).
  - rewrite <- RE. intros y Hy. apply in_app_or in Hy. destruct Hy as [Hy|Hy]; [now apply (w_from _ _ _ _ W)|].
    destruct (w_from _ _ _ _ W x) as (z & Z1 & Z2); [apply in_or_app; right; now left|]. exists z. split; [exact Z1|].
    eapply from_member; [exact Z2|]. apply (w_sub _ _ _ _ W). auto.
Qed.

Lemma sweep_spec : forall fuel g m pre post, Sweeping g m pre post -> (length L + 1 <= fuel + length pre)%nat ->
  exists g' m' all, sweep fuel g m (hd_error post) = Some (g', m') /\ g_others g' = g_others g /\ Sweeping g' m' all [].
Proof.
  induction fuel as [|f IH]; intros g m pre post W F.
  - exfalso. pose proof (w_nodup _ _ _ _ W) as ND. pose proof (NoDup_incl_length ND (w_in _ _ _ _ W)) as LE. rewrite app_length in LE. lia.
  - destruct post as [|x post]; cbn [hd_error sweep].
    + exists g, m, pre. auto.
    + assert (VX : visited (g_rec g x) = false).
      { rewrite (w_visited _ _ _ _ W), V0. 2: { apply (w_in _ _ _ _ W). apply in_or_app. right. now left. }
        cbn [orb]. apply elem_out. intros H. pose proof (w_nodup _ _ _ _ W) as ND. apply NoDup_remove_2 in ND. apply ND. apply in_or_app. now left. }
      rewrite VX. destruct (sweep_one g m pre x post W) as (g1 & kept & R & O & W2). rewrite R. cbn [obind]. cbn zeta in W2. cbn zeta.
      set (g2 := rec_set _ _ _) in *. assert (NI : next_in (g_proc g2) x = hd_error (post ++ kept)).
      { rewrite (w_proc _ _ _ _ W2). pose proof (w_nodup _ _ _ _ W2) as ND. rewrite <- app_assoc in *. cbn [app] in *. now apply next_in_spec. }
      rewrite NI. destruct (IH g2 _ _ _ W2) as (g' & m' & all & R' & O' & W'); [rewrite app_length; cbn [length]; lia|].
      exists g', m', all. split; [exact R'|]. split; [|exact W']. rewrite O'. exact O.
Qed.
End Sweep.

(** ** Freeing *)

Definition minus (l gone : list N) : list N := filter (fun x => negb (elem x gone)) l.

Lemma minus_in l gone x : In x (minus l gone) <-> In x l /\ ~ In x gone.
Proof. unfold minus. rewrite filter_In. rewrite negb_true_iff, elem_out. tauto. Qed.

Lemma minus_del l x gone : minus (del x l) gone = minus l (x :: gone).
Proof.
  unfold minus, del. induction l as [|y l IH]; [reflexivity|]. cbn [filter]. unfold elem at 2. cbn [existsb]. fold (elem y gone).
  destruct (N.eqb_spec x y) as [->|ne]; cbn [negb].
  - rewrite N.eqb_refl. cbn [orb negb]. exact IH.
  - replace (y =? x) with false by (symmetry; apply N.eqb_neq; congruence). cbn [orb filter]. destruct (negb (elem y gone)); now rewrite IH.
Qed.
Lemma minus_minus l a b : minus (minus l a) b = minus l (a ++ b).
Proof.
  unfold minus. induction l as [|y l IH]; [reflexivity|]. cbn [filter]. assert (E : elem y (a ++ b) = elem y a || elem y b) by (unfold elem; apply existsb_app).
  rewrite E. destruct (elem y a); cbn [negb orb filter]; [exact IH|]. destruct (negb (elem y b)); now rewrite IH.
Qed.
Lemma minus_nil l : minus l [] = l.
Proof. unfold minus. induction l as [|y l IH]; [reflexivity|]. cbn [filter]. change (negb (elem y [])) with true. cbv iota. now rewrite IH. Qed.
Lemma del_minus x l : del x l = minus l [x].
Proof. rewrite <- (minus_nil (del x l)). apply minus_del. Qed.

Lemma gc_removes_spec : forall l g g', gc_removes g l = Some g' ->
  NoDup l /\ incl l (g_items g) /\ g_items g' = minus (g_items g) l /\ g_proc g' = minus (g_proc g) l /\ g_rec g' = g_rec g /\ g_others g' = g_others g.
Proof.
  induction l as [|x l IH]; intros g g' H; cbn [gc_removes] in H.
  - injection H as <-. rewrite !minus_nil. repeat split; auto; [constructor|intros y []].
  - unfold gc_remove in H. destruct (elem x (g_items g)) eqn:E; [|discriminate]. cbn [obind] in H. apply IH in H. cbn [g_items g_proc g_rec g_others] in H.
    destruct H as (A & B & C & D & F & G). apply elem_in in E. rewrite minus_del in C, D. repeat split; auto.
    + constructor; [|exact A]. intros Hx. apply B in Hx. apply del_in in Hx. tauto.
    + intros y [<-|Hy]; [exact E|]. apply B in Hy. apply del_in in Hy. tauto.
Qed.

Lemma minus_nodup l gone : NoDup l -> NoDup (minus l gone).
Proof. apply NoDup_filter. Qed.

Lemma free_loop_spec releases : forall fuel g g' out, free_loop fuel releases g = Some (g', out) -> NoDup (g_proc g) -> incl (g_proc g) (g_items g) ->
  let gone := flat_map (fun x => x :: releases x) out in
  NoDup gone /\ incl gone (g_items g) /\
  (forall x, In x out -> In x (g_proc g) /\ inc (g_rec g x) = false) /\
  (forall x, In x (g_proc g) -> inc (g_rec g x) = false -> In x gone) /\
  g_items g' = minus (g_items g) gone /\ g_proc g' = [] /\ g_others g' = g_others g /\
  (forall x, ~ In x gone -> g_rec g' x = if elem x (g_proc g) then mkItem (suspected (g_rec g x)) (credit (g_rec g x)) false false else g_rec g x) /\
  (forall x, suspected (g_rec g' x) = suspected (g_rec g x)).
Proof.
  induction fuel as [|f IH]; intros g g' out H ND IN gone; cbn [free_loop] in H.
  - destruct (g_proc g) as [|x l] eqn:P; [|discriminate]. injection H as <- <-. cbn in gone. subst gone.
    rewrite minus_nil. repeat split; auto; try constructor; try (intros y []; fail); intros; contradiction.
  - destruct (g_proc g) as [|x l] eqn:P.
    + injection H as <- <-. cbn in gone. subst gone. rewrite minus_nil. repeat split; auto; try constructor; try (intros y []; fail); intros; contradiction.
    + apply NoDup_cons_iff in ND. destruct ND as [NX ND]. cbn [with_proc g_rec g_items g_others g_proc] in H.
      destruct (inc (g_rec g x)) eqn:IX.
      * apply IH in H; [|exact ND|intros y Hy; apply IN; now right]. cbn zeta in H. unfold rec_set in H. cbn [g_proc g_items g_others g_rec with_proc] in H.
        fold gone in H. destruct H as (A & B & C & D & E & F & G & I & J).
        assert (XG : ~ In x gone \/ In x gone) by (destruct (elem x gone) eqn:EE; [right; now apply elem_in|left; now apply elem_out]).
        repeat split; auto.
        -- apply C in H. destruct H as [H _]. now right.
        -- apply C in H. destruct H as [H1 H2]. destruct (N.eqb_spec x x0) as [->|]; [contradiction|exact H2].
        -- intros y [<-|Hy] Hi; [congruence|]. apply D; [exact Hy|]. destruct (N.eqb_spec x y) as [->|]; [contradiction|exact Hi].
        -- intros y Hy. rewrite I by exact Hy. unfold elem. cbn [existsb]. fold (elem y l). destruct (N.eqb_spec x y) as [->|ne].
           ++ rewrite N.eqb_refl. cbn [orb]. apply elem_out in NX. rewrite NX. reflexivity.
           ++ replace (y =? x) with false by (symmetry; apply N.eqb_neq; congruence). reflexivity.
        -- intros y. rewrite J. destruct (N.eqb_spec x y) as [->|]; reflexivity.
      * destruct (gc_removes _ (releases x)) as [g1|] eqn:R; [|discriminate]. cbn [obind] in H.
        destruct (free_loop f releases g1) as [[g2 o2]|] eqn:FL; [|discriminate]. cbn [obind] in H. injection H as <- <-.
        apply gc_removes_spec in R. cbn [g_items g_proc g_rec g_others] in R. destruct R as (R1 & R2 & R3 & R4 & R5 & R6).
        assert (INX : In x (g_items g)) by (apply IN; now left).
        apply IH in FL.
        2: { rewrite R4. now apply minus_nodup. }
        2: { rewrite R3, R4. intros y Hy. apply minus_in in Hy. apply minus_in. split; [|tauto]. apply del_in. split; [apply IN; now right|]. intros ->. tauto. }
        cbn zeta in FL. destruct FL as (A & B & C & D & E & F & G & I & J). rewrite R3, R4, R5, R6 in *. subst gone. cbn [flat_map] in *.
        set (rest := flat_map (fun x => x :: releases x) o2) in *. change ((x :: releases x) ++ rest) with (x :: (releases x ++ rest)).
        rewrite minus_del, minus_minus in E. repeat split; auto.
        -- constructor.
           ++ intros H. apply in_app_or in H. destruct H as [H|H]; [apply R2, del_in in H; tauto|]. apply B, minus_in in H. destruct H as [H _]. apply del_in in H. tauto.
           ++ clear - A B R1. induction (releases x) as [|y l' IHl]; [exact A|]. apply NoDup_cons_iff in R1. destruct R1 as [N1 N2]. cbn [app]. constructor.
              ** intros H. apply in_app_or in H. destruct H as [H|H]; [contradiction|]. apply B, minus_in in H. destruct H as [_ H]. apply H. now left.
              ** apply IHl; [exact N2|]. intros z Hz. apply B, minus_in in Hz. apply minus_in. split; [tauto|]. intros Q. apply (proj2 Hz). now right.
        -- intros y [<-|Hy]; [exact INX|]. apply in_app_or in Hy. destruct Hy as [Hy|Hy]; [apply R2, del_in in Hy; tauto|]. apply B, minus_in in Hy. destruct Hy as [Hy _]. apply del_in in Hy. tauto.
        -- destruct H as [<-|H]; [now left|]. apply C in H. destruct H as [H _]. apply minus_in in H. right. tauto.
        -- destruct H as [<-|H]; [exact IX|]. apply C in H. tauto.
        -- intros y [<-|Hy] Hi; [now left|]. right. apply in_or_app. destruct (elem y (releases x)) eqn:EY; [left; now apply elem_in|]. apply elem_out in EY.
           right. apply D; [|exact Hi]. apply minus_in. auto.
        -- intros y Hy. rewrite I by (intros Q; apply Hy; right; apply in_or_app; now right). unfold elem at 2. cbn [existsb]. fold (elem y l).
           replace (y =? x) with false by (symmetry; apply N.eqb_neq; intros ->; apply Hy; now left). cbn [orb].
           assert (EL : elem y (minus l (releases x)) = elem y l).
           { destruct (elem y l) eqn:Q; [apply elem_in, minus_in; apply elem_in in Q; split; [exact Q|]; intros Z; apply Hy; right; apply in_or_app; now left|].
             apply elem_out. apply elem_out in Q. intros Z. apply minus_in in Z. tauto. }
           now rewrite EL.
Qed.

Lemma free_loop_total : forall fuel g, (length (g_proc g) <= fuel)%nat -> exists g' out, free_loop fuel (fun _ => []) g = Some (g', out).
Proof.
  induction fuel as [|f IH]; intros g H; cbn [free_loop]; destruct (g_proc g) as [|x l] eqn:P; eauto; cbn [length] in H; [lia|].
  destruct (inc _).
  - apply IH. cbn [rec_set with_proc g_proc]. lia.
  - cbn [gc_removes obind with_proc g_proc]. destruct (IH (mkGc (del x (g_items (with_proc g l))) (g_others (with_proc g l)) l (g_rec (with_proc g l)))) as (g' & out & E); [cbn [g_proc]; lia|].
    rewrite E. cbn [obind]. eauto.
Qed.

(** ** A collection *)

Lemma rest_marking g members roots : Rest g -> closed g members roots ->
  exists g1, collect_adds (with_proc g (chain_all (g_items g) (g_proc g))) roots = Some g1 /\ g_others g1 = g_others g /\
    Marking (g_items g) members roots (g_rec g) g1 /\ seen (g_items g) g1 = 0%nat.
Proof.
  intros R [C1 C2]. rewrite (r_proc _ R), (chain_all_spec (g_items g) []) by exact (r_nodup _ R). cbn [app].
  set (g0 := with_proc g (g_items g)).
  destruct (collect_adds_spec (g_items g) (r_zero _ R) roots g0 eq_refl eq_refl C2) as (g1 & E & A & B & C & D).
  exists g1. split; [exact E|]. split; [exact B|].
  assert (V : forall x, In x (g_items g) -> visited (g_rec g1 x) = false).
  { intros x Hx. rewrite D by exact Hx. destruct (r_clear _ R x Hx) as (_ & _ & V). destruct (elem x roots); exact V. }
  split.
  - constructor; auto.
    + intros x Hx. rewrite D by exact Hx. destruct (elem x roots); reflexivity.
    + intros x Hx. rewrite D by exact Hx. destruct (r_clear _ R x Hx) as (_ & V1 & _). destruct (elem x roots); exact V1.
    + intros x Hx. rewrite D by exact Hx. destruct (elem x roots) eqn:ER; intros H; [apply elem_in in ER; now apply stays_root|].
      destruct (r_clear _ R x Hx) as (V1 & _ & _). cbn [g0 with_proc g_rec] in H. congruence.
    + intros x Hx Hr. rewrite D by exact Hx. apply elem_in in Hr. now rewrite Hr.
    + intros x y Hx Hv. rewrite V in Hv by exact Hx. discriminate.
    + intros x Hx Hv. rewrite V in Hv by exact Hx. discriminate.
  - unfold seen. replace (filter _ (g_items g)) with (@nil N); [reflexivity|].
    clear - V. induction (g_items g) as [|x l IH]; [reflexivity|]. cbn [filter]. rewrite (V x (or_introl eq_refl)). apply IH. intros y Hy. apply V. now right.
Qed.

Lemma collect_shape g members roots releases : Rest g -> closed g members roots ->
  exists rec2 G g3 m' all,
    (forall x, In x G <-> In x (g_items g) /\ is_suspect g x /\ ~ stays (g_items g) (is_suspect g) members roots x) /\
    G = filter (fun x => elem x G) (g_items g) /\
    (forall x, In x (g_items g) -> suspected (rec2 x) = suspected (g_rec g x) /\ credit (rec2 x) = false /\ inc (rec2 x) = false /\ visited (rec2 x) = false) /\
    Sweeping (g_items g) members rec2 G g3 m' all [] /\ g_others g3 = g_others g /\
    gc_collect g members roots releases =
      (q <- free_loop (S (length (g_items g) + length (g_others g))) releases g3 ;; let (g, out) := q : gc * list N in Some (g, m', out)).
Proof.
  intros R CC. destruct (rest_marking g members roots R CC) as (g1 & E1 & O1 & M1 & S1). destruct CC as [C1 C2].
  destruct (mark_spec (g_items g) members (r_zero _ R) C1 roots (g_rec g) (S (S (length (g_items g) + length (g_others g)))) g1 M1) as (g2 & E2 & M2 & O2 & D2); [lia|lia|].
  pose proof (marked (g_items g) members C1 roots (g_rec g) g2 M2 D2) as MK.
  destruct (pick (g_proc g2) g2 []) as [g2' G] eqn:PK. pose proof PK as PK'. apply pick_spec in PK'; [|rewrite (m_proc _ _ _ _ _ M2); exact (r_nodup _ R)].
  destruct PK' as (K & A & B & C & D). cbn [app] in K. rewrite (m_proc _ _ _ _ _ M2) in K, D.
  assert (JL : forall x, In x (g_items g) -> junk (g_rec g2 x) = negb (live g2 x)).
  { intros x Hx. unfold junk, live. rewrite (m_inc _ _ _ _ _ M2 x Hx). destruct (suspected _), (credit _); reflexivity. }
  assert (GI : forall x, In x G <-> In x (g_items g) /\ is_suspect g x /\ ~ stays (g_items g) (is_suspect g) members roots x).
  { intros x. rewrite K, filter_In. split.
    - intros [H1 H2]. rewrite JL in H2 by exact H1. apply negb_true_iff in H2. split; [exact H1|]. split.
      + unfold is_suspect. rewrite <- (m_susp _ _ _ _ _ M2 x H1). unfold live in H2. destruct (suspected _); [reflexivity|discriminate].
      + intros Q. apply (MK x H1) in Q. congruence.
    - intros (H1 & H2 & H3). split; [exact H1|]. rewrite JL by exact H1. apply negb_true_iff. destruct (live g2 x) eqn:LV; [|reflexivity].
      exfalso. apply H3. now apply (MK x H1). }
  assert (RR : forall x, In x (g_items g) -> suspected (g_rec g2' x) = suspected (g_rec g x) /\ credit (g_rec g2' x) = false /\ inc (g_rec g2' x) = false /\ visited (g_rec g2' x) = false).
  { intros x Hx. rewrite D. assert (EX : elem x (g_items g) = true) by now apply elem_in. rewrite EX. cbn [andb]. rewrite JL by exact Hx.
    destruct (live g2 x) eqn:LV; cbn [negb suspected credit inc visited].
    - repeat split; auto. apply (m_susp _ _ _ _ _ M2 x Hx).
    - split; [apply (m_susp _ _ _ _ _ M2 x Hx)|]. split; [unfold live in LV; destruct (suspected _), (credit _); try discriminate; reflexivity|].
      split; [apply (m_inc _ _ _ _ _ M2 x Hx)|]. destruct (visited (g_rec g2 x)) eqn:V; [|reflexivity]. rewrite (m_live _ _ _ _ _ M2 x Hx V) in LV. discriminate. }
  assert (SW : Sweeping (g_items g) members (g_rec g2') G (with_proc g2' G) members [] G).
  { constructor; cbn [app flat_map with_proc g_items g_proc g_rec].
    - rewrite A. apply (m_items _ _ _ _ _ M2).
    - reflexivity.
    - rewrite K. apply NoDup_filter. exact (r_nodup _ R).
    - rewrite K. intros x Hx. apply filter_In in Hx. tauto.
    - now rewrite app_nil_r.
    - intros x. apply incl_refl.
    - reflexivity.
    - intros x [].
    - reflexivity.
    - reflexivity.
    - intros x. unfold elem. cbn [existsb]. now rewrite orb_false_r.
    - intros x. unfold elem. cbn [existsb]. now rewrite orb_false_r.
    - intros x Hx. exists x. split; [exact Hx|constructor]. }
  destruct (sweep_spec (g_items g) members C1 (g_rec g2') G ltac:(intros x Hx; apply (RR x Hx)) (S (length (g_items g) + length (g_others g))) _ _ _ _ SW) as (g3 & m' & all & E3 & O3 & W3);
    [cbn [length]; lia|].
  exists (g_rec g2'), G, g3, m', all. split; [exact GI|]. split.
  { rewrite K at 1. apply filter_ext_in. intros x Hx. destruct (junk (g_rec g2 x)) eqn:J; symmetry; [apply elem_in|apply elem_out]; rewrite K, filter_In; [auto|].
    intros [_ Q]. congruence. }
  split; [exact RR|]. split; [exact W3|]. split.
  { rewrite O3. cbn [with_proc g_others]. congruence. }
  unfold gc_collect. rewrite E1. cbn [obind]. rewrite E2. cbn [obind]. rewrite PK. cbn [with_proc g_proc]. rewrite E3. reflexivity.
Qed.

(** What a collection does. *)
Lemma collect_spec g members roots releases g' m' out : Rest g -> closed g members roots ->
  gc_collect g members roots releases = Some (g', m', out) ->
  let gone := flat_map (fun x => x :: releases x) out in
  let garbage x := In x (g_items g) /\ is_suspect g x /\ ~ stays (g_items g) (is_suspect g) members roots x in
  (forall x, In x out -> garbage x) /\ (forall x, garbage x -> In x gone) /\ NoDup gone /\
  g_items g' = minus (g_items g) gone /\ Rest g' /\ (forall x, In x (g_items g') -> (is_suspect g' x <-> is_suspect g x)) /\ g_others g' = g_others g /\
  exists G all, (forall x, In x G <-> garbage x) /\ NoDup all /\ all = G ++ flat_map m' all /\
    (forall x, incl (m' x) (members x)) /\ (forall x, ~ In x all -> m' x = members x) /\ (forall x, In x all -> incl (members x) all) /\
    (forall x, In x all -> exists y, In y G /\ from members y x).
Proof.
  intros R CC H gone garbage. destruct (collect_shape g members roots releases R CC) as (rec2 & G & g3 & m2 & all & GI & GF & RR & W & O & E).
  rewrite E in H. clear E. destruct (free_loop _ releases g3) as [[g4 o4]|] eqn:FL; [|discriminate]. cbn [obind] in H. injection H as <- <- <-.
  pose proof (w_proc _ _ _ _ _ _ _ _ W) as WP. rewrite app_nil_r in WP. pose proof (w_nodup _ _ _ _ _ _ _ _ W) as ND. rewrite app_nil_r in ND.
  pose proof (w_in _ _ _ _ _ _ _ _ W) as IN. rewrite app_nil_r in IN. pose proof (w_kept _ _ _ _ _ _ _ _ W) as KP. rewrite app_nil_r in KP.
  apply free_loop_spec in FL; [|rewrite WP; exact ND|rewrite WP, (w_items _ _ _ _ _ _ _ _ W); exact IN]. cbn zeta in FL. fold gone in FL.
  destruct FL as (A & B & C & D & F & P & OO & RC & SS). rewrite WP, (w_items _ _ _ _ _ _ _ _ W) in *.
  assert (INC : forall x, In x all -> (inc (g_rec g3 x) = false <-> In x G)).
  { intros x Hx. rewrite (w_inc _ _ _ _ _ _ _ _ W). destruct (RR x (IN x Hx)) as (_ & _ & R3 & _). rewrite R3. cbn [orb]. rewrite elem_out.
    rewrite KP in Hx. apply in_app_or in Hx. rewrite KP in ND. split.
    - intros N. tauto.
    - intros HG Q. clear - ND HG Q. induction G as [|y G IH]; [contradiction|]. cbn [app] in ND. apply NoDup_cons_iff in ND. destruct ND as [N1 N2].
      destruct HG as [->|HG]; [apply N1; apply in_or_app; now right|auto]. }
  split. { intros x Hx. apply C in Hx. destruct Hx as [H1 H2]. apply GI. now apply INC. }
  split. { intros x Hx. apply GI in Hx. assert (HA : In x all) by (rewrite KP; apply in_or_app; now left). apply D; [exact HA|]. now apply INC. }
  split; [exact A|]. split; [exact F|].
  assert (RX : forall x, In x (g_items g4) -> credit (g_rec g4 x) = false /\ inc (g_rec g4 x) = false /\ visited (g_rec g4 x) = false).
  { intros x Hx. rewrite F in Hx. apply minus_in in Hx. destruct Hx as [H1 H2]. rewrite RC by exact H2. destruct (RR x H1) as (_ & R2 & R3 & R4).
    destruct (elem x all) eqn:EA; cbn [credit inc visited].
    - split; [|auto]. rewrite (w_credit _ _ _ _ _ _ _ _ W). exact R2.
    - apply elem_out in EA. split; [rewrite (w_credit _ _ _ _ _ _ _ _ W); exact R2|]. split.
      + rewrite (w_inc _ _ _ _ _ _ _ _ W), R3. cbn [orb]. apply elem_out. intros Q. apply EA. rewrite KP. apply in_or_app. now right.
      + rewrite (w_visited _ _ _ _ _ _ _ _ W), R4. cbn [orb]. now apply elem_out. }
  split.
  { constructor; [rewrite F; apply minus_nodup; exact (r_nodup _ R)| |exact P|exact RX]. rewrite F. intros Q. apply minus_in in Q. apply (r_zero _ R). tauto. }
  split.
  { intros x Hx. rewrite F in Hx. apply minus_in in Hx. destruct Hx as [H1 H2]. unfold is_suspect. rewrite SS, (w_susp _ _ _ _ _ _ _ _ W). destruct (RR x H1) as (R1 & _). now rewrite R1. }
  split; [congruence|]. exists G, all. split; [exact GI|]. split; [exact ND|]. split; [exact KP|]. split; [apply (w_sub _ _ _ _ _ _ _ _ W)|].
  split; [apply (w_same _ _ _ _ _ _ _ _ W)|]. split; [intros x Hx; pose proof (w_all _ _ _ _ _ _ _ _ W x Hx) as Q; now rewrite app_nil_r in Q|].
  pose proof (w_from _ _ _ _ _ _ _ _ W) as Q. now rewrite app_nil_r in Q.
Qed.

Lemma collect_total g members roots : Rest g -> closed g members roots -> exists g' m' out, gc_collect g members roots (fun _ => []) = Some (g', m', out).
Proof.
  intros R CC. destruct (collect_shape g members roots (fun _ => []) R CC) as (rec2 & G & g3 & m2 & all & GI & GF & RR & W & O & E).
  rewrite E. destruct (free_loop_total (S (length (g_items g) + length (g_others g))) g3) as (g' & out & F).
  - pose proof (NoDup_incl_length (w_nodup _ _ _ _ _ _ _ _ W) (w_in _ _ _ _ _ _ _ _ W)) as LE. rewrite (w_proc _ _ _ _ _ _ _ _ W). lia.
  - rewrite F. cbn [obind]. eauto.
Qed.

(** ** Histories *)

Lemma rest_step g o g' : Rest g -> op_legal g o -> op_step g o = Some g' -> Rest g'.
Proof.
  intros R L H. destruct o as [x|x|x|members roots releases]; cbn [op_step op_legal] in *.
  - injection H as <-. destruct L as [L1 L2]. unfold gc_add. constructor; cbn [g_items g_proc g_rec rec_set].
    + apply NoDup_snoc; [exact (r_nodup _ R)|exact L2].
    + intros Q. apply in_app_or in Q. destruct Q as [Q|[Q|[]]]; [now apply (r_zero _ R)|congruence].
    + exact (r_proc _ R).
    + intros y Hy. destruct (N.eqb_spec x y) as [->|ne]; [cbn; auto|]. apply in_app_or in Hy. destruct Hy as [Hy|[Hy|[]]]; [now apply (r_clear _ R)|congruence].
  - unfold gc_suspect in H. destruct (known g x); [|discriminate]. injection H as <-. constructor; cbn [g_items g_proc g_rec rec_set].
    + exact (r_nodup _ R).
    + exact (r_zero _ R).
    + exact (r_proc _ R).
    + intros y Hy. destruct (N.eqb_spec x y) as [->|ne]; cbn [credit inc visited]; now apply (r_clear _ R).
  - unfold gc_remove in H. destruct (elem x (g_items g)); [|discriminate]. injection H as <-. constructor; cbn [g_items g_proc g_rec].
    + rewrite del_minus. apply minus_nodup. exact (r_nodup _ R).
    + intros Q. apply del_in in Q. apply (r_zero _ R). tauto.
    + rewrite (r_proc _ R). reflexivity.
    + intros y Hy. apply del_in in Hy. apply (r_clear _ R). tauto.
  - destruct (gc_collect g members roots releases) as [[[g1 m1] out]|] eqn:E; [|discriminate]. cbn [obind fst] in H. injection H as <-.
    pose proof (collect_spec _ _ _ _ _ _ _ R L E) as S. cbn zeta in S. tauto.
Qed.

Lemma rest_run : forall l g g', Rest g -> ops_legal g l -> op_run g l = Some g' -> Rest g'.
Proof.
  induction l as [|o l IH]; intros g g' R L H; cbn [op_run ops_legal] in *.
  - now injection H as <-.
  - destruct (op_step g o) as [g1|] eqn:S; [|discriminate]. cbn [obind] in H. destruct L as [L1 L2]. eapply IH; [| |exact H]; [eapply rest_step; eauto|exact L2].
Qed.

Lemma rest_new others r : Rest (gc_new others r).
Proof. constructor; cbn; [constructor|auto|reflexivity|intros x []]. Qed.

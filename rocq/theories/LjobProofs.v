Require Import List Arith NArith Bool Lia Sorting.Permutation.
Require Import ZifyBool ZifyNat ZifyN.
Require Import Verif.Base Verif.LjobModel Verif.LjobSpec.
Import ListNotations.
Open Scope N_scope.

(** ** Trees and references *)

Definition is_use (id : nat) (s : stm) : bool := match s with Cached i => Nat.eqb i id | _ => false end.
Definition cnt (id : nat) (ss : list stm) : nat := length (filter (is_use id) ss).
Definition owned (ss : list stm) : list nat := flat_map (fun s => match s with Own id => [id] | _ => [] end) ss.
Definition refs (l : list entry) : list (nat * N) := map (fun e => (e_id e, e_ref e)) l.
(** Each tree is freed, or in the cache, or of one job; the cache counts the jobs that use its trees. *)
Definition Mem (fr : list nat) (rs : list (nat * N)) (n : nat) (ss : list stm) : Prop :=
  Permutation (fr ++ map fst rs ++ owned ss) (seq 0 n) /\
  (forall id, (0 < cnt id ss)%nat -> In id (map fst rs)) /\
  (forall id r, In (id, r) rs -> r = N.of_nat (cnt id ss) /\ 0 < r).
Definition mem (c : lang) (ss : list stm) : Prop := Mem (freed c) (refs (cache c)) (length (trees c)) ss.

Lemma mem_nodup : forall fr rs n ss, Mem fr rs n ss -> NoDup (fr ++ map fst rs ++ owned ss).
Proof. intros fr rs n ss (P & _). apply (Permutation_NoDup (Permutation_sym P)), seq_NoDup. Qed.
Lemma cnt_le : forall id ss, (cnt id ss <= length ss)%nat.
Proof. intros id ss. unfold cnt. induction ss as [|s ss IH]; cbn [filter length]; [lia|]. destruct (is_use id s); cbn [length]; lia. Qed.
Lemma cnt_cons : forall id s ss, cnt id (s :: ss) = ((if is_use id s then 1 else 0) + cnt id ss)%nat.
Proof. intros. unfold cnt. cbn [filter]. destruct (is_use id s); reflexivity. Qed.
Lemma cnt_perm : forall id a b, Permutation a b -> cnt id a = cnt id b.
Proof. intros id a b H. induction H; rewrite ?cnt_cons in *; lia. Qed.
Lemma owned_perm : forall a b, Permutation a b -> Permutation (owned a) (owned b).
Proof. intros a b H. unfold owned. now apply Permutation_flat_map. Qed.
Lemma mem_perm : forall fr rs n a b, Permutation a b -> Mem fr rs n a -> Mem fr rs n b.
Proof.
  intros fr rs n a b P (M1 & M2 & M3). split; [|split].
  - rewrite <- M1. now rewrite (owned_perm _ _ P).
  - intros id H. apply M2. now rewrite (cnt_perm id _ _ P).
  - intros id r H. rewrite <- (cnt_perm id _ _ P). now apply M3.
Qed.

Lemma map_refs_id : forall l, map fst (refs l) = map e_id l.
Proof. intros. unfold refs. now rewrite map_map. Qed.
Lemma existsb_no : forall id l, ~ In id l -> existsb (Nat.eqb id) l = false.
Proof.
  intros id l H. apply not_true_is_false. intros E. apply existsb_exists in E. destruct E as (x & I & Q). apply Nat.eqb_eq in Q. subst. contradiction.
Qed.

(** What a change of the memory leaves alone *)
Definition rest_same (c c' : lang) : Prop := caching c' = caching c /\ jobs c' = jobs c /\ names c' = names c /\ made c' = made c.
Definition from (c c' : lang) : Prop := forall e', In e' (cache c') -> exists e, In e (cache c) /\ e_id e = e_id e' /\ e_code e = e_code e' /\ e_time e = e_time e'.

Lemma free_ok : forall c id, ~ In id (freed c) -> exists c', free_tree c id = Ok c' /\ freed c' = freed c ++ [id] /\ cache c' = cache c /\ trees c' = trees c /\ rest_same c c'.
Proof. intros c id H. unfold free_tree. rewrite existsb_no by exact H. eexists. split; [reflexivity|]. repeat split. Qed.

Lemma filter_ids : forall id l, map e_id (filter (fun e => negb (Nat.eqb (e_id e) id)) l) = filter (fun i => negb (Nat.eqb i id)) (map e_id l).
Proof. intros id. induction l as [|e l IH]; cbn [filter map]; [reflexivity|]. destruct (Nat.eqb (e_id e) id); cbn [negb map]; congruence. Qed.
Lemma filter_perm : forall id l, NoDup l -> In id l -> Permutation l (id :: filter (fun i => negb (Nat.eqb i id)) l).
Proof.
  intros id l ND I. apply NoDup_Permutation; [exact ND| |].
  - constructor; [|now apply NoDup_filter]. intros X. apply filter_In in X. destruct X as [_ X]. rewrite Nat.eqb_refl in X. discriminate.
  - intros x. split; intros H.
    + destruct (Nat.eq_dec x id) as [->|N]; [now left|]. right. apply filter_In. split; [exact H|]. apply Nat.eqb_neq in N. now rewrite N.
    + destruct H as [<-|H]; [exact I|]. apply filter_In in H. tauto.
Qed.

Lemma nodup_mid : forall (a b c : list nat) x, NoDup (a ++ b ++ c) -> In x b \/ In x c -> ~ In x a.
Proof.
  intros a b c x H I X. induction a as [|y a IH]; [destruct X|]. cbn [app] in H. apply NoDup_cons_iff in H. destruct H as [H1 H2]. destruct X as [->|X]; [|auto].
  apply H1, in_or_app. right. apply in_or_app. exact I.
Qed.

Lemma nodup_in : forall (a b c : list nat), NoDup (a ++ b ++ c) -> NoDup b.
Proof.
  intros a b c. induction a as [|x a IH]; cbn [app]; intros H; [|apply NoDup_cons_iff in H; tauto].
  induction b as [|x b IH]; [constructor|]. cbn [app] in H. apply NoDup_cons_iff in H. destruct H as [H1 H2]. constructor; [|auto]. intros X. apply H1, in_or_app. now left.
Qed.

Lemma release_ok : forall c s ss, mem c (s :: ss) -> N.of_nat (length ss) < 2 ^ 63 - 1 ->
  exists c', release c s = Ok c' /\ mem c' ss /\ trees c' = trees c /\ rest_same c c' /\ from c c'.
Proof.
  intros c s ss M B. pose proof (mem_nodup _ _ _ _ M) as ND. destruct M as (M1 & M2 & M3). destruct s as [|id|id]; cbn [release].
  - exists c. split; [reflexivity|]. split; [|repeat split; intros e' H; eauto]. split; [exact M1|]. split; [exact M2|exact M3].
  - assert (I : In id (map fst (refs (cache c)))) by (apply M2; rewrite cnt_cons; cbn [is_use]; rewrite Nat.eqb_refl; lia).
    destruct (find _ (cache c)) as [e|] eqn:F.
    2:{ exfalso. rewrite map_refs_id in I. apply in_map_iff in I. destruct I as (e & E & I). pose proof (find_none _ _ F e I) as X. cbn beta in X. apply Nat.eqb_neq in X. contradiction. }
    apply find_some in F. destruct F as [IE E]. apply Nat.eqb_eq in E.
    assert (RE : In (id, e_ref e) (refs (cache c))) by (rewrite <- E; unfold refs; apply (in_map (fun e => (e_id e, e_ref e)) _ _ IE)).
    destruct (M3 _ _ RE) as [RF _]. rewrite cnt_cons in RF. cbn [is_use] in RF. rewrite Nat.eqb_refl in RF.
    pose proof (cnt_le id ss) as CL.
    assert (RM : (e_ref e + (2 ^ 63 - 1)) mod 2 ^ 63 = N.of_nat (cnt id ss)).
    { rewrite RF. replace (N.of_nat (1 + cnt id ss) + (2 ^ 63 - 1)) with (N.of_nat (cnt id ss) + 1 * 2 ^ 63) by lia. rewrite N.mod_add by discriminate. apply N.mod_small. lia. }
    rewrite RM. destruct (N.eqb_spec (N.of_nat (cnt id ss)) 0) as [Z|Z].
    + assert (NF : ~ In id (freed c)) by (apply (nodup_mid _ _ _ _ ND); now left).
      set (c1 := mkX _ _ _ _ _ _ _). destruct (free_ok c1 id NF) as (c' & EQ & F1 & F2 & F3 & F4). exists c'. split; [exact EQ|].
      assert (C : refs (cache c') = filter (fun x => negb (Nat.eqb (fst x) id)) (refs (cache c))).
      { rewrite F2. unfold c1, refs. cbn [cache]. clear. induction (cache c) as [|e l IH]; cbn [filter map fst]; [reflexivity|]. destruct (Nat.eqb (e_id e) id); cbn [negb map]; congruence. }
      split; [|split; [exact F3|split; [exact F4|]]].
      * unfold mem. rewrite F1, F3, C. unfold c1. cbn [freed trees]. split; [|split].
        -- rewrite <- M1. assert (CI : map fst (filter (fun x => negb (Nat.eqb (fst x) id)) (refs (cache c))) = filter (fun i => negb (Nat.eqb i id)) (map fst (refs (cache c)))).
           { clear. induction (refs (cache c)) as [|e l IH]; cbn [filter map]; [reflexivity|]. destruct (Nat.eqb (fst e) id); cbn [negb map]; congruence. }
           rewrite CI. cbn [owned flat_map app]. rewrite <- app_assoc. apply Permutation_app_head. cbn [app]. fold (owned ss).
           assert (NC : NoDup (map fst (refs (cache c)))) by (exact (nodup_in _ _ _ ND)).
           rewrite (filter_perm id _ NC I) at 2. reflexivity.
        -- intros i H. assert (NE : i <> id) by (intros ->; lia). assert (X : In i (map fst (refs (cache c)))) by (apply M2; rewrite cnt_cons; lia).
           apply in_map_iff in X. destruct X as ([i' r] & Q & X). cbn [fst] in Q. subst i'. apply in_map_iff. exists (i, r). split; [reflexivity|]. apply filter_In. split; [exact X|].
           cbn [fst]. apply Nat.eqb_neq in NE. now rewrite NE.
        -- intros i r H. apply filter_In in H. destruct H as [H N]. cbn [fst] in N. destruct (M3 _ _ H) as [Q1 Q2]. split; [|exact Q2]. rewrite Q1, cnt_cons. cbn [is_use].
           rewrite Nat.eqb_sym. destruct (Nat.eqb i id); [discriminate N|]. reflexivity.
      * intros e' H. rewrite F2 in H. unfold c1 in H. cbn [cache] in H. apply filter_In in H. exists e'. tauto.
    + eexists. split; [reflexivity|]. cbn [cache trees]. split; [|split; [reflexivity|split; [repeat split|]]].
      * unfold mem. cbn [freed cache trees].
        assert (C : refs (map (fun e => if Nat.eqb (e_id e) id then mkE (e_id e) (e_code e) (N.of_nat (cnt id ss)) (e_expire e) (e_time e) else e) (cache c)) =
                    map (fun x => if Nat.eqb (fst x) id then (fst x, N.of_nat (cnt id ss)) else x) (refs (cache c))).
        { unfold refs. rewrite !map_map. apply map_ext. intros x. cbn [fst]. destruct (Nat.eqb (e_id x) id); reflexivity. }
        rewrite C. assert (CF : map fst (map (fun x => if Nat.eqb (fst x) id then (fst x, N.of_nat (cnt id ss)) else x) (refs (cache c))) = map fst (refs (cache c))).
        { rewrite map_map. apply map_ext. intros x. destruct (Nat.eqb (fst x) id); reflexivity. }
        split; [|split]; rewrite ?CF.
        -- exact M1.
        -- intros i H. apply M2. rewrite cnt_cons. lia.
        -- intros i r H. apply in_map_iff in H. destruct H as ([i' r'] & Q & H). cbn [fst] in Q. destruct (M3 _ _ H) as [Q1 Q2]. rewrite cnt_cons in Q1. cbn [is_use] in Q1. rewrite Nat.eqb_sym in Q1.
           destruct (Nat.eqb_spec i' id) as [->|NE].
           ++ assert (i = id) by congruence. assert (r = N.of_nat (cnt id ss)) by congruence. subst. lia.
           ++ assert (i = i') by congruence. assert (r = r') by congruence. subst i r. cbn [Nat.add] in Q1. auto.
      * intros e' H. apply in_map_iff in H. destruct H as (e0 & Q & H). exists e0. split; [exact H|]. destruct (Nat.eqb (e_id e0) id); subst e'; auto.
  - assert (NF : ~ In id (freed c)) by (apply (nodup_mid _ _ _ _ ND); right; now left).
    destruct (free_ok c id NF) as (c' & EQ & F1 & F2 & F3 & F4). exists c'. split; [exact EQ|]. split; [|split; [exact F3|split; [exact F4|]]].
    + unfold mem. rewrite F1, F2, F3. split; [|split; [exact M2|exact M3]]. rewrite <- M1. cbn [owned flat_map app]. fold (owned ss). rewrite <- app_assoc. apply Permutation_app_head. cbn [app].
      apply Permutation_middle.
    + intros e' H. rewrite F2 in H. eauto.
Qed.

(** ** The cache *)

Definition sim (e e' : entry) : Prop := e_id e' = e_id e /\ e_code e' = e_code e /\ e_ref e' = e_ref e /\ e_time e' = e_time e.
Lemma same_iff : forall a b, same a b = true <-> a = b.
Proof. intros. unfold same. destruct (list_eq_dec N.eq_dec a b); split; congruence. Qed.
Lemma look_ok : forall l t key, Forall2 sim l (fst (look l t key)) /\
  forall id, snd (look l t key) = Some id -> exists e, In e l /\ e_id e = id /\ e_code e = key /\ (t + (2 ^ 64 - e_time e)) mod 2 ^ 64 < 30000000.
Proof.
  assert (S1 : forall e, sim e e) by (intros; repeat split). assert (S2 : forall l, Forall2 sim l l) by (induction l; constructor; auto).
  induction l as [|e l IH]; intros t key; cbn [look]; [split; [constructor|discriminate]|].
  specialize (IH t key). destruct (look l t key) as [r x]. cbn [fst snd] in IH. destruct IH as [I1 I2].
  assert (K : forall e', sim e e' -> Forall2 sim (e :: l) (fst (e' :: r, x)) /\ forall id, snd (e' :: r, x) = Some id -> exists e0, In e0 (e :: l) /\ e_id e0 = id /\ e_code e0 = key /\ (t + (2 ^ 64 - e_time e0)) mod 2 ^ 64 < 30000000).
  { intros e' S. cbn [fst snd]. split; [now constructor|]. intros id E. destruct (I2 id E) as (e0 & J & Q). exists e0. split; [now right|exact Q]. }
  destruct (e_expire e); [now apply K|]. destruct (N.leb_spec 30000000 ((t + (2 ^ 64 - e_time e)) mod 2 ^ 64)) as [L|L]; [apply K; repeat split|].
  destruct (same (e_code e) key) eqn:Q; [|now apply K]. cbn [fst snd]. split; [constructor; auto|]. intros id E. exists e. apply same_iff in Q. split; [now left|]. split; [congruence|]. auto.
Qed.
Lemma sim_refs : forall l l', Forall2 sim l l' -> refs l' = refs l.
Proof. intros l l' H. induction H as [|e e' l l' (S1 & _ & S3 & _) H IH]; [reflexivity|]. unfold refs in *. cbn [map]. congruence. Qed.
Lemma sim_in : forall l l', Forall2 sim l l' -> forall e', In e' l' -> exists e, In e l /\ sim e e'.
Proof. intros l l' H. induction H as [|e e' l l' S H IH]; intros x I; [destruct I|]. destruct I as [<-|I]; [exists e; split; [now left|exact S]|]. destruct (IH x I) as (y & J & Q). exists y. split; [now right|exact Q]. Qed.

(** Each entry was made by a job of the past. *)
Definition Prov (h : list op) (c : lang) : Prop := forall e, In e (cache c) -> exists k content a w f t,
  In (New k content a w f) h /\ key_of k content w = Some (e_code e) /\ generate k content w = Some t /\ nth_error (trees c) (e_id e) = Some t /\ now w = e_time e.
Lemma prov_from : forall h c c', Prov h c -> from c c' -> (exists x, trees c' = trees c ++ x) -> Prov h c'.
Proof.
  intros h c c' P F (x & T) e' I. destruct (F e' I) as (e & IE & Q1 & Q2 & Q3). destruct (P e IE) as (k & content & a & w & f & t & H1 & H2 & H3 & H4 & H5).
  exists k, content, a, w, f, t. rewrite <- Q1, <- Q2, <- Q3, T. repeat split; auto. rewrite nth_error_app1; [exact H4|]. apply nth_error_Some. congruence.
Qed.
Lemma prov_more : forall h o c, Prov h c -> Prov (h ++ [o]) c.
Proof. intros h o c P e I. destruct (P e I) as (k & content & a & w & f & t & H1 & H). exists k, content, a, w, f, t. split; [apply in_or_app; now left|exact H]. Qed.

Definition text_of (c : lang) (s : stm) : option (list N) := match s with NoTree => None | Cached id | Own id => nth_error (trees c) id end.

Lemma key_gen : forall k content w key t, key_of k content w = Some key -> generate k content w = Some t -> forall a f, steady (New k content a w f) ->
  (path key -> k = File /\ content = key /\ second w = Some t) /\ (~ path key -> t = key).
Proof.
  intros k content w key t K G a f S. unfold generate in G. destruct (parses w); [|discriminate]. destruct k; cbn [key_of steady] in *.
  - split; intros H; [exfalso; apply S; congruence|congruence].
  - assert (PD : path content -> Some content = Some key /\ second w = Some t).
    { intros (r & [->| ->]); cbn [N.eqb Pos.eqb orb] in K; auto. }
    assert (ND : ~ path content -> first w = Some key).
    { intros N. destruct content as [|ch content]; [exact K|]. destruct (N.eqb_spec ch 47) as [->|N1]; [exfalso; apply N; eexists; eauto|]. destruct (N.eqb_spec ch 64) as [->|N2]; [exfalso; apply N; eexists; eauto|]. exact K. }
    assert (DEC : path content \/ ~ path content).
    { destruct content as [|ch content]; [right; intros (r & [X|X]); discriminate|]. destruct (N.eq_dec ch 47) as [->|N1]; [left; eexists; eauto|]. destruct (N.eq_dec ch 64) as [->|N2]; [left; eexists; eauto|]. right. intros (r & [X|X]); congruence. }
    destruct DEC as [D|D].
    + destruct (PD D) as [Q1 Q2]. assert (content = key) by congruence. subst key. split; [auto|contradiction].
    + destruct S as [S|[S1 S2]]; [contradiction|]. specialize (ND D). split; [intros P; destruct (S2 key ND P)|]. intros _. congruence.
Qed.
Lemma path_dec : forall s, path s \/ ~ path s.
Proof.
  intros [|ch s]; [right; intros (r & [X|X]); discriminate|]. destruct (N.eq_dec ch 47) as [->|N1]; [left; eexists; eauto|]. destruct (N.eq_dec ch 64) as [->|N2]; [left; eexists; eauto|]. right. intros (r & [X|X]); congruence.
Qed.
Lemma key_own : forall k content w key a f, key_of k content w = Some key -> steady (New k content a w f) ->
  (path key -> k = File /\ content = key) /\ (~ path key -> fresh k content w key).
Proof.
  intros k content w key a f K S. destruct k; cbn [key_of steady fresh] in *.
  - split; intros H; [exfalso; apply S; congruence|congruence].
  - destruct (path_dec content) as [D|D].
    + assert (Some content = Some key) by (destruct D as (r & [->| ->]); exact K). assert (content = key) by congruence. subst key. split; [auto|contradiction].
    + assert (first w = Some key).
      { destruct content as [|ch content]; [exact K|]. destruct (N.eqb_spec ch 47) as [->|N1]; [exfalso; apply D; eexists; eauto|]. destruct (N.eqb_spec ch 64) as [->|N2]; [exfalso; apply D; eexists; eauto|]. exact K. }
      destruct S as [S|[S1 S2]]; [contradiction|]. split; [intros P; destruct (S2 key H P)|]. intros _. congruence.
Qed.

Definition right_text (h : list op) (o : op) (k : kind) (content : list N) (w : world) (f : option stage) (t : option (list N)) : Prop :=
  match t with Some t => Forall steady (h ++ [o]) -> allowed h k content w t | None => no_program k w f end.

Lemma gen_fresh : forall k content w t, generate k content w = Some t -> fresh k content w t.
Proof. intros k content w t G. unfold generate in G. destruct (parses w); [|discriminate]. destruct k; cbn [fresh]; congruence. Qed.
Lemma gen_none : forall k content w f, generate k content w = None -> no_program k w f.
Proof. intros k content w f G. unfold generate in G. unfold no_program. destruct (parses w); [|now left]. destruct k; [discriminate|]. right. right. auto. Qed.
Lemma key_none : forall k content w f, key_of k content w = None -> no_program k w f.
Proof.
  intros k content w f K. unfold no_program. right. right. destruct k; cbn [key_of] in K; [discriminate|]. split; [reflexivity|]. left.
  destruct content as [|ch content]; [exact K|]. destruct ((ch =? 47) || (ch =? 64)); [discriminate|exact K].
Qed.

Lemma mem_new_tree : forall fr rs n ss, Mem fr rs n ss -> forall s x, (x = [] /\ s = Own n \/ x = [(n, 1)] /\ s = Cached n) -> Mem fr (rs ++ x) (Datatypes.S n) (s :: ss).
Proof.
  intros fr rs n ss M s x X. pose proof M as (M1 & M2 & M3). unfold Mem. rewrite seq_S. cbn [Nat.add].
  assert (NI : ~ In n (map fst rs)).
  { intros I. assert (J : In n (seq 0 n)) by (apply (Permutation_in _ M1), in_or_app; right; apply in_or_app; now left). apply in_seq in J. lia. }
  assert (N0 : cnt n ss = 0%nat) by (destruct (cnt n ss) eqn:E; [reflexivity|]; exfalso; apply NI, M2; lia).
  destruct X as [[-> ->]|[-> ->]].
  - rewrite app_nil_r. split; [|split; [exact M2|exact M3]]. cbn [owned flat_map app]. fold (owned ss). unfold Mem. rewrite <- M1.
    rewrite <- app_assoc. rewrite <- app_assoc. apply Permutation_app_head, Permutation_app_head. apply Permutation_cons_append.
  - split; [|split].
    + cbn [owned flat_map app]. fold (owned ss). rewrite <- M1, map_app. cbn [map fst]. rewrite <- !app_assoc. apply Permutation_app_head, Permutation_app_head. cbn [app]. apply Permutation_cons_append.
    + intros id H. rewrite cnt_cons in H. cbn [is_use] in H. rewrite map_app. apply in_or_app. cbn [map fst In]. destruct (Nat.eqb_spec n id) as [->|NE]; [right; now left|left; apply M2; lia].
    + intros id r H. rewrite cnt_cons. cbn [is_use]. apply in_app_or in H. destruct H as [H|[H|[]]].
      * destruct (Nat.eqb_spec n id) as [->|NE]; [exfalso; apply NI; apply (in_map fst _ _ H)|]. cbn [Nat.add]. now apply M3.
      * assert (id = n) by congruence. assert (r = 1) by congruence. subst. rewrite Nat.eqb_refl, N0. split; reflexivity.
Qed.

Lemma program_ok : forall c k content w f a h ss, mem c ss -> N.of_nat (length ss) < 2 ^ 63 - 1 -> Prov h c ->
  let o := New k content a w f in
  exists c' s, program c k content w f = Ok (c', s) /\ mem c' (s :: ss) /\ (exists x, trees c' = trees c ++ x) /\ rest_same c c' /\ Prov (h ++ [o]) c' /\
    right_text h o k content w f (text_of c' s).
Proof.
  intros c k content w f a h ss M B P o. unfold program.
  assert (NOTREE : forall c', mem c' ss -> mem c' (NoTree :: ss)) by (intros c' (M1 & M2 & M3); split; [exact M1|split; [exact M2|exact M3]]).
  destruct (caching c).
  2:{ destruct (generate k content w) as [t|] eqn:G.
      - eexists. eexists. split; [reflexivity|]. unfold mem, new_tree. cbn [cache freed trees]. split.
        + rewrite app_length. cbn [length]. rewrite Nat.add_1_r. rewrite <- (app_nil_r (refs (cache c))). apply mem_new_tree; [exact M|auto].
        + split; [eauto|]. split; [repeat split|]. split.
          * apply prov_more. apply (prov_from h c); [exact P| |exists [t]; reflexivity]. intros e' I. exists e'. split; [exact I|auto].
          * cbn [text_of trees]. rewrite nth_error_app2, Nat.sub_diag by lia. cbn [nth_error right_text]. intros _. left. now apply gen_fresh.
      - exists c, NoTree. split; [reflexivity|]. split; [now apply NOTREE|]. split; [exists []; now rewrite app_nil_r|]. split; [repeat split|]. split; [now apply prov_more|]. now apply (gen_none k content). }
  destruct (key_of k content w) as [key|] eqn:K.
  2:{ exists c, NoTree. split; [reflexivity|]. split; [now apply NOTREE|]. split; [exists []; now rewrite app_nil_r|]. split; [repeat split|]. split; [now apply prov_more|]. now apply (key_none k content). }
  destruct (look_ok (cache c) (now w) key) as [L1 L2]. destruct (look (cache c) (now w) key) as [l x]. cbn [fst snd] in L1, L2.
  assert (RL : refs l = refs (cache c)) by now apply sim_refs.
  assert (PL : Prov h (with_cache c l)).
  { apply (prov_from h c); [exact P| |exists []; cbn [with_cache trees]; now rewrite app_nil_r]. intros e' I. cbn [with_cache cache] in I. destruct (sim_in _ _ L1 e' I) as (e & J & S1 & S2 & S3 & S4). exists e. auto. }
  assert (ML : mem (with_cache c l) ss) by (unfold mem; cbn [with_cache cache freed trees]; rewrite RL; exact M).
  destruct x as [id|].
  - destruct (L2 id eq_refl) as (e & IE & E1 & E2 & E3).
    eexists. eexists. split; [reflexivity|]. split; [|split; [exists []; cbn [with_cache trees]; now rewrite app_nil_r|split; [repeat split|split]]].
    + unfold mem. cbn [with_cache cache freed trees]. destruct M as (M1 & M2 & M3).
      assert (IR : In (id, e_ref e) (refs (cache c))) by (rewrite <- E1; unfold refs; apply (in_map (fun e => (e_id e, e_ref e)) _ _ IE)).
      assert (C : refs (map (fun e => if Nat.eqb (e_id e) id then mkE (e_id e) (e_code e) ((e_ref e + 1) mod 2 ^ 63) (e_expire e) (e_time e) else e) l) =
                  map (fun x => if Nat.eqb (fst x) id then (fst x, (snd x + 1) mod 2 ^ 63) else x) (refs (cache c))).
      { rewrite <- RL. unfold refs. rewrite !map_map. apply map_ext. intros y. cbn [fst snd]. destruct (Nat.eqb (e_id y) id); reflexivity. }
      rewrite C. assert (CF : map fst (map (fun x => if Nat.eqb (fst x) id then (fst x, (snd x + 1) mod 2 ^ 63) else x) (refs (cache c))) = map fst (refs (cache c))).
      { rewrite map_map. apply map_ext. intros y. destruct (Nat.eqb (fst y) id); reflexivity. }
      split; [|split]; rewrite ?CF.
      * exact M1.
      * intros i H. rewrite cnt_cons in H. cbn [is_use] in H. destruct (Nat.eqb_spec id i) as [->|NE]; [apply (in_map fst _ _ IR)|apply M2; lia].
      * intros i r H. apply in_map_iff in H. destruct H as ([i' r'] & Q & H). cbn [fst snd] in Q. destruct (M3 _ _ H) as [Q1 Q2]. rewrite cnt_cons. cbn [is_use]. rewrite (Nat.eqb_sym id i).
        pose proof (cnt_le i' ss) as CL. destruct (Nat.eqb_spec i' id) as [->|NE].
        -- assert (i = id) by congruence. assert (r = (r' + 1) mod 2 ^ 63) by congruence. subst i r. rewrite Nat.eqb_refl. rewrite N.mod_small by lia. lia.
        -- assert (i = i') by congruence. assert (r = r') by congruence. subst i r. apply Nat.eqb_neq in NE. rewrite NE. cbn [Nat.add]. auto.
    + apply prov_more. apply (prov_from h (with_cache c l)); [exact PL| |exists []; cbn [with_cache trees]; now rewrite app_nil_r].
      intros e' I. cbn [with_cache cache] in *. apply in_map_iff in I. destruct I as (e0 & Q & I). exists e0. split; [exact I|]. destruct (Nat.eqb (e_id e0) id); subst e'; auto.
    + cbn [text_of with_cache trees]. destruct (P e IE) as (k' & content' & a' & w' & f' & t & H1 & H2 & H3 & H4 & H5). rewrite <- E1, H4. cbn [right_text]. intros S.
      apply Forall_app in S. destruct S as [S1 S2]. apply Forall_inv in S2. rewrite Forall_forall in S1. specialize (S1 _ H1).
      destruct (key_gen _ _ _ _ _ H2 H3 a' f' S1) as [G1 G2]. rewrite E2 in G1, G2. destruct (key_own _ _ _ _ a f K S2) as [O1 O2].
      destruct (path_dec key) as [D|D].
      * destruct (O1 D) as [-> ->]. destruct (G1 D) as (-> & -> & G3). right. split; [reflexivity|]. split; [exact D|]. exists a', w', f'. rewrite H5. auto.
      * left. rewrite (G2 D). now apply O2.
  - destruct (generate k content w) as [t|] eqn:G.
    2:{ eexists. eexists. split; [reflexivity|]. split; [now apply NOTREE|]. split; [exists []; cbn [with_cache trees]; now rewrite app_nil_r|]. split; [repeat split|]. split; [now apply prov_more|]. now apply (gen_none k content). }
    set (c1 := new_tree (with_cache c l) t). change (trees (with_cache c l)) with (trees c).
    assert (T1 : trees c1 = trees c ++ [t]) by reflexivity.
    assert (P1 : Prov (h ++ [o]) c1).
    { apply prov_more. apply (prov_from h (with_cache c l)); [exact PL| |exists [t]; reflexivity]. intros e' I. exists e'. split; [exact I|auto]. }
    assert (ADD : exists c' s, Ok (with_cache c1 (cache c1 ++ [mkE (length (trees c)) key 1 false (now w)]), Cached (length (trees c))) = Ok (c', s) /\
      mem c' (s :: ss) /\ (exists x, trees c' = trees c ++ x) /\ rest_same c c' /\ Prov (h ++ [o]) c' /\ right_text h o k content w f (text_of c' s)).
    { eexists. eexists. split; [reflexivity|]. split; [|split; [exists [t]; reflexivity|split; [repeat split|split]]].
      - unfold mem. cbn [with_cache cache freed trees c1 new_tree]. rewrite app_length. cbn [length]. rewrite Nat.add_1_r. unfold refs. rewrite map_app. cbn [map e_id e_ref]. apply mem_new_tree; [|auto]. fold (refs l). rewrite RL. exact M.
      - intros e' I. cbn [with_cache cache trees] in *. apply in_app_or in I. destruct I as [I|[<-|[]]]; [exact (P1 e' I)|]. cbn [e_id e_code e_time].
        exists k, content, a, w, f, t. rewrite T1, nth_error_app2, Nat.sub_diag by lia. repeat split; auto. apply in_or_app. right. now left.
      - cbn [text_of with_cache trees]. rewrite T1, nth_error_app2, Nat.sub_diag by lia. cbn [nth_error right_text]. intros _. left. now apply gen_fresh. }
    destruct f as [[]|]; try exact ADD.
    assert (NF : ~ In (length (trees c)) (freed c1)).
    { intros I. change (freed c1) with (freed c) in I. destruct M as (M1 & _). assert (J : In (length (trees c)) (seq 0 (length (trees c)))) by (apply (Permutation_in _ M1), in_or_app; now left). apply in_seq in J. lia. }
    destruct (free_ok c1 _ NF) as (c' & E & F1 & F2 & F3 & F4). rewrite E. cbn [rbind]. exists c', NoTree. split; [reflexivity|]. split; [|split; [|split; [|split]]].
    + apply NOTREE. unfold mem. rewrite F1, F2, F3, T1, app_length. cbn [length c1 new_tree cache with_cache freed]. rewrite Nat.add_1_r. rewrite RL. destruct M as (M1 & M2 & M3). split; [|split; [exact M2|exact M3]].
      rewrite seq_S, <- M1. cbn [Nat.add]. rewrite <- !app_assoc. apply Permutation_app_head. cbn [app]. rewrite app_assoc. apply Permutation_cons_append.
    + exists [t]. now rewrite F3.
    + destruct F4 as (? & ? & ? & ?). repeat split; assumption.
    + apply (prov_from _ c1); [exact P1| |exists []; now rewrite app_nil_r, F3]. intros e' I. rewrite F2 in I. eauto.
    + cbn [text_of right_text]. right. left. discriminate.
Qed.

(** ** Jobs and names *)

Definition abs (c : lang) : list (nat * option (list N) * option (list N)) := map (fun x => (j_id x, text_of c (j_stm x), j_alias x)) (jobs c).
Record R (h : list op) (c : lang) (d : world_of_jobs) : Prop := mkR {
  r_mem : mem c (map j_stm (jobs c));
  r_len : (length (jobs c) <= length h)%nat;
  r_prov : Prov h c;
  r_live : abs c = live d;
  r_ids : NoDup (map j_id (jobs c));
  r_made : forall x, In x (jobs c) -> (j_id x < made c)%nat;
  r_names : forall a k, In (a, k) (names c) -> exists x, In x (jobs c) /\ j_id x = k /\ j_alias x = Some a;
  r_key : NoDup (map fst (names c));
  r_full : forall x a, In x (jobs c) -> j_alias x = Some a -> ~ In a (twice d) -> In (a, j_id x) (names c) }.

Lemma mem_id : forall c ss s id, mem c ss -> In s ss -> s = Cached id \/ s = Own id -> (id < length (trees c))%nat /\ ~ In id (freed c).
Proof.
  intros c ss s id M I E. pose proof (mem_nodup _ _ _ _ M) as ND. destruct M as (M1 & M2 & M3).
  assert (J : In id (map fst (refs (cache c))) \/ In id (owned ss)).
  { destruct E as [->| ->].
    - left. apply M2. clear - I. induction ss as [|s ss IH]; [destruct I|]. rewrite cnt_cons. destruct I as [->|I]; [cbn [is_use]; rewrite Nat.eqb_refl; lia|]. specialize (IH I). lia.
    - right. unfold owned. apply in_flat_map. exists (Own id). split; [exact I|now left]. }
  split; [|exact (nodup_mid _ _ _ _ ND J)].
  assert (X : In id (seq 0 (length (trees c)))). { apply (Permutation_in _ M1), in_or_app. right. apply in_or_app. exact J. }
  apply in_seq in X. lia.
Qed.
Lemma text_stable : forall c c' ss s x, mem c ss -> In s ss -> trees c' = trees c ++ x -> text_of c' s = text_of c s.
Proof.
  intros c c' ss s x M I T. destruct s as [|id|id]; cbn [text_of]; [reflexivity| |]; rewrite T; apply nth_error_app1; eapply mem_id; eauto.
Qed.
Lemma abs_stable : forall c c' x, mem c (map j_stm (jobs c)) -> trees c' = trees c ++ x -> jobs c' = jobs c -> abs c' = abs c.
Proof.
  intros c c' x M T J. unfold abs. rewrite J. apply map_ext_in. intros y I. do 2 f_equal. eapply text_stable; eauto. now apply in_map.
Qed.

Definition less (a : option (list N)) (l : list (list N * nat)) : list (list N * nat) := match a with Some a => filter (fun x => negb (same (fst x) a)) l | None => l end.
Lemma ctx_free_ok : forall c s a ss, mem c (s :: ss) -> N.of_nat (length ss) < 2 ^ 63 - 1 ->
  exists c', ctx_free c s a = Ok c' /\ mem c' ss /\ trees c' = trees c /\ jobs c' = jobs c /\ made c' = made c /\ names c' = less a (names c) /\ from c c'.
Proof.
  intros c s a ss M B. unfold ctx_free. set (c1 := match a with Some a => drop_name c a | None => c end).
  assert (E : cache c1 = cache c /\ freed c1 = freed c /\ trees c1 = trees c /\ jobs c1 = jobs c /\ made c1 = made c /\ names c1 = less a (names c)) by (destruct a; repeat split).
  destruct E as (E1 & E2 & E3 & E4 & E5 & E6). assert (M1 : mem c1 (s :: ss)) by (unfold mem; rewrite E1, E2, E3; exact M).
  destruct (release_ok c1 s ss M1 B) as (c' & Q & Q1 & Q2 & (Q3 & Q4 & Q5 & Q6) & Q7). exists c'. split; [exact Q|]. split; [exact Q1|]. split; [congruence|]. split; [congruence|]. split; [congruence|]. split; [congruence|].
  intros e' I. destruct (Q7 e' I) as (e & J & H). rewrite E1 in J. eauto.
Qed.

Lemma nodup_filter_fst : forall (f : list N * nat -> bool) l, NoDup (map fst l) -> NoDup (map fst (filter f l)).
Proof.
  intros f. induction l as [|x l IH]; cbn [filter map]; intros H; [constructor|]. apply NoDup_cons_iff in H. destruct H as [H1 H2]. destruct (f x); [|auto]. cbn [map]. constructor; [|auto].
  intros I. apply in_map_iff in I. destruct I as (y & E & I). apply filter_In in I. apply H1. rewrite <- E. apply in_map. tauto.
Qed.
Lemma less_in : forall a x l, In x (less a l) <-> In x l /\ a <> Some (fst x).
Proof.
  intros [a|] x l; cbn [less]; [|split; [intros; split; [assumption|discriminate]|tauto]]. rewrite filter_In. split; intros [H1 H2]; split; auto.
  - intros E. assert (X : same (fst x) a = true) by (apply same_iff; congruence). rewrite X in H2. discriminate.
  - destruct (same (fst x) a) eqn:E; [|reflexivity]. apply same_iff in E. congruence.
Qed.
Lemma less_key : forall a l, NoDup (map fst l) -> NoDup (map fst (less a l)).
Proof. intros [a|] l H; cbn [less]; [now apply nodup_filter_fst|exact H]. Qed.
Lemma key_unique : forall (l : list (list N * nat)) a k k', NoDup (map fst l) -> In (a, k) l -> In (a, k') l -> k = k'.
Proof.
  induction l as [|[b i] l IH]; cbn [map fst]; intros a k k' H I J; [destruct I|]. apply NoDup_cons_iff in H. destruct H as [H1 H2]. destruct I as [I|I], J as [J|J]; try congruence; [| |eauto].
  - exfalso. apply H1. assert (b = a) by congruence. subst. apply (in_map fst _ _ J).
  - exfalso. apply H1. assert (b = a) by congruence. subst. apply (in_map fst _ _ I).
Qed.
Lemma taken_some : forall c a k, taken c a = Some k -> In (a, k) (names c).
Proof.
  intros c a k H. unfold taken in H. destruct (find _ (names c)) as [[b i]|] eqn:F; [|discriminate]. apply find_some in F. destruct F as [I E]. cbn [fst] in E. apply same_iff in E. cbn [option_map snd] in H.
  assert (i = k) by congruence. now subst.
Qed.
Lemma taken_none : forall c a, taken c a = None -> forall k, ~ In (a, k) (names c).
Proof.
  intros c a H k I. unfold taken in H. destruct (find _ (names c)) as [x|] eqn:F; [discriminate|]. pose proof (find_none _ _ F _ I) as E. cbn [fst] in E. assert (same a a = true) by now apply same_iff. congruence.
Qed.
Lemma held_iff : forall h c d a, R h c d -> (held d a <-> exists x, In x (jobs c) /\ j_alias x = Some a).
Proof.
  intros h c d a H. unfold held. rewrite <- (r_live _ _ _ H). unfold abs. split.
  - intros (y & I & E). apply in_map_iff in I. destruct I as (x & <- & I). eauto.
  - intros (x & I & E). eexists. split; [apply in_map_iff; exists x; split; [reflexivity|exact I]|exact E].
Qed.
Lemma known_iff : forall h c d j, R h c d -> (known d j <-> In j (map j_id (jobs c))).
Proof. intros h c d j H. unfold known. rewrite <- (r_live _ _ _ H). unfold abs. rewrite map_map. reflexivity. Qed.

(** The names asked for twice after one more asking *)
Definition ask (d : world_of_jobs) (n : option (list N)) : list (list N) :=
  match n with
  | Some s => if existsb (fun x => match name x with Some b => same b s | None => false end) (live d) then s :: twice d else twice d
  | None => twice d
  end.
Lemma ask_in : forall d n s, In s (ask d n) <-> In s (twice d) \/ n = Some s /\ held d s.
Proof.
  intros d [b|] s; cbn [ask]; [|split; [auto|intros [H|[H _]]; [exact H|discriminate]]].
  assert (E : existsb (fun x => match name x with Some b0 => same b0 b | None => false end) (live d) = true <-> held d b).
  { rewrite existsb_exists. unfold held. split; intros (x & I & Q); exists x; (split; [exact I|]); destruct (name x) as [y|]; try discriminate.
    - apply same_iff in Q. congruence.
    - apply same_iff. congruence. }
  destruct (existsb _ (live d)) eqn:X.
  - assert (HB : held d b) by now apply E. split; [intros [<-|H]; auto|]. intros [H|[H _]]; [now right|left; congruence].
  - split; [auto|]. intros [H|[H1 H2]]; [exact H|]. assert (b = s) by congruence. subst. assert (false = true) by (apply E; exact H2). discriminate.
Qed.

Lemma new_ok : forall h c d k content n w f, R h c d -> N.of_nat (length h) < 2 ^ 63 - 1 ->
  let o := New k content n w f in
  exists c' r, job_new c k content n w f = Ok (c', r) /\
    exists d', follows1 h d o (match r with Some j => Made j | None => Refused end) d' /\ R (h ++ [o]) c' d'.
Proof.
  intros h c d k content n w f H B o. unfold job_new.
  assert (SAME : forall c1 l al, mem c1 (map j_stm (jobs c)) -> Prov (h ++ [o]) c1 -> (exists x, trees c1 = trees c ++ x) -> jobs c1 = jobs c -> made c1 = made c -> names c1 = less al (names c) ->
     l = ask d n -> (al = None \/ al = n) -> R (h ++ [o]) c1 (mkWJ (live d) l)).
  { intros c1 l al M P (x & T) J MA NA -> AL. constructor; cbn [live twice]; rewrite ?J, ?MA, ?NA.
    - exact M.
    - rewrite app_length. pose proof (r_len _ _ _ H). lia.
    - exact P.
    - rewrite <- (r_live _ _ _ H). eapply abs_stable; eauto. exact (r_mem _ _ _ H).
    - exact (r_ids _ _ _ H).
    - exact (r_made _ _ _ H).
    - intros a i I. apply less_in in I. apply (r_names _ _ _ H), I.
    - apply less_key, (r_key _ _ _ H).
    - intros y a I A N. assert (N1 : ~ In a (twice d)) by (intros X; apply N, ask_in; now left).
      apply less_in. split; [now apply (r_full _ _ _ H)|]. cbn [fst]. intros E. apply N, ask_in. right. destruct AL as [->|AL]; [discriminate|]. split; [congruence|]. apply (held_iff _ _ _ _ H). eauto. }
  assert (TW : forall l, l = ask d n -> forall s, In s (twice (mkWJ (live d) l)) <-> In s (twice d) \/ n = Some s /\ held d s) by (intros l -> s; apply ask_in).
  destruct (is_stage f Before) eqn:F0.
  { exists c, None. split; [reflexivity|]. exists (mkWJ (live d) (ask d n)). split.
    - split; [now apply TW|]. left. split; [reflexivity|]. split; [reflexivity|]. left. intros ->. discriminate.
    - apply (SAME c _ None); auto; [exact (r_mem _ _ _ H)|apply prov_more, (r_prov _ _ _ H)|exists []; now rewrite app_nil_r]. }
  assert (LB : N.of_nat (length (map j_stm (jobs c))) < 2 ^ 63 - 1) by (rewrite map_length; pose proof (r_len _ _ _ H); lia).
  destruct (program_ok c k content w f n h _ (r_mem _ _ _ H) LB (r_prov _ _ _ H)) as (c1 & s & E & M & (x & T) & (S1 & S2 & S3 & S4) & P & RT).
  rewrite E. cbn [rbind]. fold o in P, RT.
  assert (REF : forall al, (al = None \/ al = n) -> (f <> None \/ exists s, n = Some s /\ held d s) ->
    exists c' r, rbind (ctx_free c1 s al) (fun c => Ok (c, None)) = Ok (c', r) /\
      exists d', follows1 h d o (match r with Some j => Made j | None => Refused end) d' /\ R (h ++ [o]) c' d').
  { intros al AL WHY. destruct (ctx_free_ok c1 s al _ M LB) as (c' & Q & Q1 & Q2 & Q3 & Q4 & Q5 & Q6). rewrite Q. cbn [rbind]. exists c', None. split; [reflexivity|].
    exists (mkWJ (live d) (ask d n)). split; [split; [now apply TW|]; left; auto|].
    apply (SAME c' _ al); auto; try congruence; [|exists x; congruence]. apply (prov_from _ c1); [exact P|exact Q6|]. exists []. now rewrite app_nil_r. }
  assert (ENT : (forall b, n = Some b -> taken c1 b = None) ->
    exists c' r, Ok (enter c1 s n, Some (made c1)) = Ok (c', r) /\
      exists d', follows1 h d o (match r with Some j => Made j | None => Refused end) d' /\ R (h ++ [o]) c' d').
  { intros TK. eexists. eexists. split; [reflexivity|].
    assert (TS : forall y, In y (jobs c) -> text_of c1 (j_stm y) = text_of c (j_stm y)) by (intros y I; eapply text_stable; [exact (r_mem _ _ _ H)|now apply in_map|exact T]).
    assert (TK' : forall b, n = Some b -> forall i, ~ In (b, i) (names c)) by (intros b E0 i; rewrite <- S3; now apply taken_none, TK).
    exists (mkWJ (live d ++ [(made c1, text_of c1 s, n)]) (ask d n)). split.
    - split; [intros y; apply ask_in|]. right. exists (made c1), (text_of c1 s). split; [reflexivity|]. split; [|split; [reflexivity|split; [|exact RT]]].
      + rewrite (known_iff _ _ _ _ H), S4. intros I. apply in_map_iff in I. destruct I as (y & Q & I). pose proof (r_made _ _ _ H y I). lia.
      + intros b E0 N HE. apply (held_iff _ _ _ _ H) in HE. destruct HE as (y & I & A). exact (TK' b E0 _ (r_full _ _ _ H y b I A N)).
    - constructor; cbn [enter jobs cache trees freed made names live twice]; rewrite ?S2, ?S4, ?S3.
      + rewrite map_app. cbn [map j_stm]. unfold mem. cbn [cache freed trees]. refine (mem_perm _ _ _ _ _ _ M). apply Permutation_cons_append.
      + rewrite !app_length. cbn [length]. pose proof (r_len _ _ _ H). lia.
      + apply (prov_from _ c1); [exact P| |exists []; now rewrite app_nil_r]. intros e' I. exists e'. split; [exact I|auto].
      + rewrite <- (r_live _ _ _ H). unfold abs. cbn [enter jobs]. rewrite S2, map_app. cbn [map j_id j_stm j_alias]. f_equal; [|rewrite ?S4; reflexivity]. apply map_ext_in. intros y I. do 2 f_equal. rewrite <- (TS y I). reflexivity.
      + rewrite map_app. cbn [map j_id]. apply (Permutation_NoDup (Permutation_cons_append _ _)). constructor; [|exact (r_ids _ _ _ H)]. intros I. apply in_map_iff in I. destruct I as (y & Q & I). pose proof (r_made _ _ _ H y I). lia.
      + intros y I. apply in_app_or in I. destruct I as [I|[<-|[]]]; [pose proof (r_made _ _ _ H y I); lia|cbn [j_id]; lia].
      + intros a i I. assert (I' : In (a, i) (names c) \/ n = Some a /\ i = made c).
        { destruct n as [b|]; [|now left]. destruct I as [I|I]; [right; split; congruence|now left]. }
        destruct I' as [I'|[-> ->]].
        * destruct (r_names _ _ _ H a i I') as (y & J & Q). exists y. split; [apply in_or_app; now left|exact Q].
        * eexists. split; [apply in_or_app; right; now left|]. split; reflexivity.
      + destruct n as [b|]; [|exact (r_key _ _ _ H)]. cbn [map fst]. constructor; [|exact (r_key _ _ _ H)]. intros I. apply in_map_iff in I. destruct I as ([b' i] & Q & I). cbn [fst] in Q. subst b'. exact (TK' b eq_refl i I).
      + intros y a I A N. assert (N1 : ~ In a (twice d)) by (intros X; apply N, ask_in; now left). apply in_app_or in I. destruct I as [I|[<-|[]]].
        * pose proof (r_full _ _ _ H y a I A N1) as J. destruct n as [b|]; [now right|exact J].
        * cbn [j_alias] in A. subst n. now left. }
  assert (FN : forall st, is_stage f st = true -> f <> None) by (intros st Q ->; discriminate).
  destruct (is_stage f Behind) eqn:F1; [apply REF; [now left|left; eauto]|].
  destruct n as [b|].
  - destruct (taken c1 b) as [i|] eqn:TK.
    + apply REF; [now right|]. right. exists b. split; [reflexivity|]. apply (held_iff _ _ _ _ H). apply taken_some in TK. rewrite S3 in TK. destruct (r_names _ _ _ H b i TK) as (y & I & _ & A). eauto.
    + destruct (is_stage f ForNode || is_stage f ForSignal) eqn:F2.
      * apply REF; [now right|]. left. apply orb_true_iff in F2. destruct F2; eauto.
      * apply ENT. intros b' Q. congruence.
  - destruct (is_stage f ForSignal) eqn:F2; [apply REF; [now left|left; eauto]|]. apply ENT. discriminate.
Qed.

Lemma job_perm : forall (l : list job) x, NoDup (map j_id l) -> In x l -> Permutation l (x :: filter (fun y => negb (Nat.eqb (j_id y) (j_id x))) l).
Proof.
  induction l as [|y l IH]; cbn [map]; intros x ND I; [destruct I|]. apply NoDup_cons_iff in ND. destruct ND as [N1 N2]. cbn [filter]. destruct I as [->|I].
  - rewrite Nat.eqb_refl. cbn [negb]. apply perm_skip. clear IH N2. induction l as [|y l IH]; [constructor|]. cbn [filter]. destruct (Nat.eqb_spec (j_id y) (j_id x)) as [E|E]; [exfalso; apply N1; rewrite <- E; now left|].
    cbn [negb]. apply perm_skip, IH. intros X. apply N1. now right.
  - destruct (Nat.eqb_spec (j_id y) (j_id x)) as [E|E]; [exfalso; apply N1; rewrite E; now apply in_map|]. cbn [negb]. rewrite (IH x N2 I) at 1. apply perm_swap.
Qed.
Lemma id_unique : forall (l : list job) x y, NoDup (map j_id l) -> In x l -> In y l -> j_id x = j_id y -> x = y.
Proof.
  induction l as [|z l IH]; cbn [map]; intros x y ND I J E; [destruct I|]. apply NoDup_cons_iff in ND. destruct ND as [N1 N2]. destruct I as [->|I], J as [->|J]; [reflexivity| | |eauto].
  - exfalso. apply N1. rewrite E. now apply in_map.
  - exfalso. apply N1. rewrite <- E. now apply in_map.
Qed.

Lemma free_job_ok : forall h c d o x, R h c d -> N.of_nat (length h) < 2 ^ 63 - 1 -> In x (jobs c) ->
  exists c', job_free c (j_id x) = Ok c' /\ R (h ++ [o]) c' (mkWJ (without (j_id x) (live d)) (twice d)) /\
    jobs c' = filter (fun y => negb (Nat.eqb (j_id y) (j_id x))) (jobs c) /\ trees c' = trees c.
Proof.
  intros h c d o x H B I. unfold job_free. destruct (find _ (jobs c)) as [x'|] eqn:F.
  2:{ exfalso. pose proof (find_none _ _ F x I) as X. cbn beta in X. rewrite Nat.eqb_refl in X. discriminate. }
  apply find_some in F. destruct F as [I' E]. apply Nat.eqb_eq in E. assert (x' = x) by (eapply id_unique; eauto; exact (r_ids _ _ _ H)). subst x'.
  set (fl := filter (fun y => negb (Nat.eqb (j_id y) (j_id x))) (jobs c)). set (c1 := mkX _ _ _ _ _ _ _).
  pose proof (job_perm _ x (r_ids _ _ _ H) I) as PE. fold fl in PE.
  assert (M : mem c1 (j_stm x :: map j_stm fl)) by (unfold mem; cbn [c1 cache freed trees]; refine (mem_perm _ _ _ _ _ _ (r_mem _ _ _ H)); exact (Permutation_map j_stm PE)).
  assert (LE : (length fl < length (jobs c))%nat) by (rewrite (Permutation_length PE); cbn [length]; lia).
  assert (LB : N.of_nat (length (map j_stm fl)) < 2 ^ 63 - 1) by (rewrite map_length; pose proof (r_len _ _ _ H); lia).
  destruct (ctx_free_ok c1 (j_stm x) (j_alias x) _ M LB) as (c' & Q & Q1 & Q2 & Q3 & Q4 & Q5 & Q6). exists c'. split; [exact Q|]. split; [|split; [exact Q3|exact Q2]].
  assert (FI : forall y, In y fl <-> In y (jobs c) /\ j_id y <> j_id x).
  { intros y. unfold fl. rewrite filter_In. destruct (Nat.eqb_spec (j_id y) (j_id x)); cbn [negb]; intuition congruence. }
  constructor; cbn [live twice]; rewrite ?Q3, ?Q4, ?Q5; cbn [c1 jobs made names].
  - exact Q1.
  - rewrite app_length. pose proof (r_len _ _ _ H). lia.
  - apply prov_more. apply (prov_from h c); [exact (r_prov _ _ _ H)|exact Q6|exists []; rewrite app_nil_r; exact Q2].
  - rewrite <- (r_live _ _ _ H). unfold abs, without. rewrite Q3. cbn [c1 jobs]. unfold fl. clear - Q2. assert (T : forall s, text_of c' s = text_of c s) by (intros []; cbn [text_of]; rewrite ?Q2; reflexivity).
    clear Q2 c1 fl. induction (jobs c) as [|y l IH]; cbn [filter map]; [reflexivity|]. unfold num at 1. cbn [fst]. destruct (Nat.eqb (j_id y) (j_id x)); cbn [negb map]; [exact IH|]. rewrite T. now f_equal.
  - unfold fl. pose proof (r_ids _ _ _ H) as ND. clear - ND. induction (jobs c) as [|y l IH]; cbn [filter map] in *; [constructor|]. apply NoDup_cons_iff in ND. destruct ND as [N1 N2]. destruct (negb _); [|auto]. cbn [map]. constructor; [|auto].
    intros X. apply N1. apply in_map_iff in X. destruct X as (z & Z & X). apply filter_In in X. rewrite <- Z. apply in_map. tauto.
  - intros y J. apply FI in J. now apply (r_made _ _ _ H).
  - intros a k J. apply less_in in J. cbn [fst] in J. destruct J as [J N]. destruct (r_names _ _ _ H a k J) as (y & Y1 & Y2 & Y3). exists y. split; [|auto]. apply FI. split; [exact Y1|].
    intros X. assert (y = x) by (eapply id_unique; eauto; exact (r_ids _ _ _ H)). subst y. congruence.
  - apply less_key, (r_key _ _ _ H).
  - intros y a J A N. apply FI in J. destruct J as [J NE]. apply less_in. cbn [fst]. split; [now apply (r_full _ _ _ H)|]. intros X. apply NE.
    eapply (key_unique (names c)); [exact (r_key _ _ _ H)| |]; apply (r_full _ _ _ H); eauto.
Qed.

Lemma R_more : forall h c d o, R h c d -> R (h ++ [o]) c d.
Proof.
  intros h c d o H. destruct H. constructor; auto; [rewrite app_length; lia|now apply prov_more].
Qed.

Lemma step_ok : forall h c d o, R h c d -> N.of_nat (length h) < 2 ^ 63 - 1 ->
  match step c o with Ok (c', a) => exists d', follows1 h d o a d' /\ R (h ++ [o]) c' d' | Fault _ => ~ proper d o end.
Proof.
  intros h c d o H B. destruct o as [|k content n w f|j|j s|j]; cbn [step].
  - exists d. split; [split; reflexivity|]. apply R_more. destruct H. constructor; auto.
  - destruct (new_ok h c d k content n w f H B) as (c' & r & E & d' & F & Q). rewrite E. cbn [rbind fst snd]. exists d'. auto.
  - destruct (in_dec Nat.eq_dec j (map j_id (jobs c))) as [I|I].
    + pose proof I as I0. apply in_map_iff in I. destruct I as (x & <- & I). destruct (free_job_ok h c d (Free (j_id x)) x H B I) as (c' & E & Q & _). rewrite E. cbn [rbind]. eexists. split; [|exact Q].
      split; [reflexivity|]. split; [|reflexivity]. now apply (known_iff _ _ _ _ H).
    + unfold job_free. destruct (find _ (jobs c)) as [x|] eqn:F; cbn [rbind].
      * exfalso. apply find_some in F. destruct F as [J E]. apply Nat.eqb_eq in E. apply I. rewrite <- E. now apply in_map.
      * cbn [proper]. now rewrite (known_iff _ _ _ _ H).
  - unfold kill. destruct (existsb (fun x => Nat.eqb (j_id x) j) (jobs c)) eqn:X.
    + assert (K : known d j). { apply (known_iff _ _ _ _ H). apply existsb_exists in X. destruct X as (x & I & E). apply Nat.eqb_eq in E. rewrite <- E. now apply in_map. }
      destruct (taken c s) as [k|] eqn:T.
      * apply taken_some in T. destruct (r_names _ _ _ H s k T) as (x & I & <- & A). destruct (Nat.eqb_spec (j_id x) j) as [E|NE]; cbn [rbind].
        -- cbn [proper]. intros [_ P]. apply (P (j_id x, text_of c (j_stm x), j_alias x)); [|exact E|exact A]. rewrite <- (r_live _ _ _ H). unfold abs. apply (in_map (fun x => (j_id x, text_of c (j_stm x), j_alias x)) _ _ I).
        -- destruct (free_job_ok h c d (Kill j s) x H B I) as (c' & E & Q & _). rewrite E. cbn [rbind]. eexists. split; [|exact Q]. split; [reflexivity|]. split; [exact K|]. split; [reflexivity|]. right.
           exists (j_id x, text_of c (j_stm x), j_alias x). split; [rewrite <- (r_live _ _ _ H); unfold abs; apply (in_map (fun x => (j_id x, text_of c (j_stm x), j_alias x)) _ _ I)|]. split; [exact A|]. split; [exact NE|reflexivity].
      * cbn [rbind]. exists d. split; [|now apply R_more]. split; [reflexivity|]. split; [exact K|]. split; [reflexivity|]. left. split; [reflexivity|].
        destruct (in_dec (list_eq_dec N.eq_dec) s (twice d)) as [I|I]; [now left|]. right. intros HE. apply (held_iff _ _ _ _ H) in HE. destruct HE as (x & J & A). exact (taken_none _ _ T _ (r_full _ _ _ H x s J A I)).
    + cbn [rbind proper]. intros [K _]. apply (known_iff _ _ _ _ H) in K. apply in_map_iff in K. destruct K as (x & E & I). assert (existsb (fun x => Nat.eqb (j_id x) j) (jobs c) = true) by (apply existsb_exists; exists x; split; [exact I|now apply Nat.eqb_eq]). congruence.
  - unfold use. destruct (find _ (jobs c)) as [x|] eqn:F.
    + apply find_some in F. destruct F as [I E]. apply Nat.eqb_eq in E.
      assert (U : match j_stm x with NoTree => Ok None | Cached id | Own id => if existsb (Nat.eqb id) (freed c) then Fault Dangling else match nth_error (trees c) id with Some t => Ok (Some t) | None => Fault Dangling end end = Ok (text_of c (j_stm x))).
      { pose proof (in_map j_stm _ _ I) as IS. pose proof (fun id => mem_id c _ (j_stm x) id (r_mem _ _ _ H) IS) as MI.
        destruct (j_stm x) as [|id|id]; cbn [text_of]; [reflexivity| |]; (destruct (MI id ltac:(auto)) as [L N]; rewrite existsb_no by exact N; destruct (nth_error (trees c) id) eqn:Q; [reflexivity|apply nth_error_None in Q; lia]). }
      rewrite U. cbn [rbind]. exists d. split; [|now apply R_more]. split; [reflexivity|]. exists (j_id x, text_of c (j_stm x), j_alias x). split; [rewrite <- (r_live _ _ _ H); unfold abs; apply (in_map (fun x => (j_id x, text_of c (j_stm x), j_alias x)) _ _ I)|]. split; [exact E|reflexivity].
    + cbn [rbind proper]. rewrite (known_iff _ _ _ _ H). intros K. apply in_map_iff in K. destruct K as (x & E & I). pose proof (find_none _ _ F x I) as X. cbn beta in X. apply Nat.eqb_neq in X. contradiction.
Qed.

Lemma run_ok : forall os h c d, R h c d -> N.of_nat (length h + length os) < 2 ^ 63 ->
  match run c os with
  | Ok (c', outs) => exists d', follows h d os outs d' /\ R (h ++ os) c' d'
  | Fault _ => exists pre o post outs d', os = pre ++ o :: post /\ follows h d pre outs d' /\ ~ proper d' o
  end.
Proof.
  induction os as [|o os IH]; intros h c d H B; cbn [run].
  - exists d. split; [reflexivity|]. now rewrite app_nil_r.
  - cbn [length] in B. pose proof (step_ok h c d o H ltac:(lia)) as S. destruct (step c o) as [[c1 a]|f]; cbn [rbind fst snd].
    + destruct S as (d1 & F1 & H1). specialize (IH (h ++ [o]) c1 d1 H1). rewrite app_length in IH. cbn [length] in IH. specialize (IH ltac:(lia)). destruct (run c1 os) as [[c2 outs]|f]; cbn [rbind fst snd].
      * destruct IH as (d2 & F2 & H2). exists d2. split; [cbn [follows]; eauto|]. rewrite <- app_assoc in H2. exact H2.
      * destruct IH as (pre & o' & post & outs & d2 & -> & F2 & N). exists (o :: pre), o', post, (a :: outs), d2. split; [reflexivity|]. split; [cbn [follows]; eauto|exact N].
    + exists [], o, os, [], d. split; [reflexivity|]. split; [reflexivity|exact S].
Qed.

Lemma new_R : R [] new (mkWJ [] []).
Proof.
  constructor; cbn [new jobs cache names trees freed made live twice map length abs].
  - split; [apply perm_nil|]. split; [intros id X; unfold cnt in X; cbn [filter length] in X; lia|intros id r []].
  - apply Nat.le_refl.
  - intros e [].
  - reflexivity.
  - constructor.
  - intros x [].
  - intros a k [].
  - constructor.
  - intros x a [].
Qed.

Lemma close_jobs_ok : forall l h c d, R h c d -> jobs c = l -> N.of_nat (length h + length l) < 2 ^ 63 ->
  exists c' h' d', close_jobs c l = Ok c' /\ R h' c' d' /\ jobs c' = [] /\ trees c' = trees c.
Proof.
  induction l as [|x l IH]; intros h c d H E B; cbn [close_jobs].
  - exists c, h, d. auto.
  - assert (I : In x (jobs c)) by (rewrite E; now left). cbn [length] in B. destruct (free_job_ok h c d Caching x H ltac:(lia) I) as (c1 & Q & H1 & J & T). rewrite Q. cbn [rbind].
    pose proof (r_ids _ _ _ H) as ND. rewrite E in ND, J. cbn [map] in ND. apply NoDup_cons_iff in ND. destruct ND as [N1 _].
    assert (J' : jobs c1 = l).
    { rewrite J. cbn [filter]. rewrite Nat.eqb_refl. cbn [negb]. clear - N1. induction l as [|y l IH]; [reflexivity|]. cbn [filter]. destruct (Nat.eqb_spec (j_id y) (j_id x)) as [X|X]; [exfalso; apply N1; left; exact X|]. cbn [negb]. f_equal. apply IH. intros Y. apply N1. now right. }
    destruct (IH _ c1 _ H1 J') as (c' & h' & d' & G1 & G2 & G3 & G4); [rewrite app_length; cbn [length]; lia|]. exists c', h', d'. split; [exact G1|]. split; [exact G2|]. split; [exact G3|congruence].
Qed.

Lemma close_ok : forall h c d, R h c d -> N.of_nat (length h + length h) < 2 ^ 63 -> exists c', close c = Ok c' /\ Permutation (freed c') (seq 0 (length (trees c))).
Proof.
  intros h c d H B. unfold close. pose proof (r_len _ _ _ H) as L. destruct (close_jobs_ok (jobs c) h c d H eq_refl ltac:(lia)) as (c1 & h1 & d1 & E & H1 & J & T). rewrite E. cbn [rbind].
  pose proof (r_mem _ _ _ H1) as (M1 & M2 & M3). rewrite J in M1, M2, M3. cbn [map] in *.
  assert (CA : cache c1 = []). { destruct (cache c1) as [|e l]; [reflexivity|]. destruct (M3 (e_id e) (e_ref e)) as [X Y]; [now left|]. unfold cnt in X. cbn [filter length] in X. lia. }
  rewrite CA in *. cbn [close_cache]. exists c1. split; [reflexivity|]. cbn [refs map owned flat_map] in M1. rewrite !app_nil_r in M1. rewrite <- T. exact M1.
Qed.

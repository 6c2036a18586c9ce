Require Import List Arith NArith Bool Permutation Lia.
Require Import ZifyBool ZifyNat ZifyN.
Require Import Verif.Base Verif.HashModel Verif.HashSpec.
Import ListNotations.
Open Scope N_scope.
Arguments mkE {K V}. Arguments ekey {K V}. Arguments eval {K V}. Arguments emgr {K V}. Arguments erem {K V}. Arguments eflag {K V}.
Arguments len {K V}. Arguments thr {K V}. Arguments nr {K V}. Arguments expandable {K V}. Arguments use_prime {K V}. Arguments gen {K V}.
Arguments tbl {K V}. Arguments iter {K V}. Arguments cur {K V}. Arguments mem {K V}. Arguments next {K V}. Arguments mkT {K V}.

(** * Lists *)
Lemma filter_filter A (p q : A -> bool) l : filter p (filter q l) = filter (fun x => q x && p x) l.
Proof. induction l as [| x r IH]; [reflexivity|]. cbn [filter]. destruct (q x); cbn [filter andb]; [destruct (p x); rewrite IH; reflexivity | exact IH]. Qed.
Lemma filter_none A (p : A -> bool) l : (forall x, In x l -> p x = false) -> filter p l = [].
Proof.
  induction l as [| x r IH]; intros H; [reflexivity|]. cbn [filter]. rewrite (H x (or_introl eq_refl)). apply IH. intros y Hy; apply H; right; exact Hy.
Qed.
Lemma filter_ext_on A (p q : A -> bool) l : (forall x, In x l -> p x = q x) -> filter p l = filter q l.
Proof.
  induction l as [| x r IH]; intros H; [reflexivity|]. cbn [filter]. rewrite (H x (or_introl eq_refl)), IH; [reflexivity|]. intros y Hy; apply H; right; exact Hy.
Qed.
Lemma filter_split A (p : A -> bool) l x r : filter p l = x :: r ->
  exists l1 l2, l = l1 ++ x :: l2 /\ (forall y, In y l1 -> p y = false) /\ p x = true /\ filter p l2 = r.
Proof.
  induction l as [| y t IH]; cbn [filter]; [discriminate|]. destruct (p y) eqn:Py.
  - intros X; injection X as X1 X2; subst. exists [], t. repeat split; auto. intros z [].
  - intros H. destruct (IH H) as (l1 & l2 & -> & H1 & H2 & H3). exists (y :: l1), l2. repeat split; auto.
    intros z [<- | Hz]; auto.
Qed.
Lemma drop_none a l : ~ In a l -> drop a l = l.
Proof.
  intros H. unfold drop. induction l as [| b r IH]; [reflexivity|]. cbn [filter]. destruct (N.eqb_spec b a) as [-> | Hn]; [destruct H; left; reflexivity|].
  cbn [negb]. f_equal. apply IH. intros X; apply H; right; exact X.
Qed.
Lemma drop_mid a l1 l2 : NoDup (l1 ++ a :: l2) -> drop a (l1 ++ a :: l2) = l1 ++ l2.
Proof.
  intros H. apply NoDup_remove_2 in H. unfold drop. rewrite filter_app. cbn [filter]. rewrite N.eqb_refl. cbn [negb].
  change (drop a l1 ++ drop a l2 = l1 ++ l2). rewrite !drop_none; [reflexivity | |]; intros X; apply H, in_or_app; auto.
Qed.
Lemma drop_in a b l : In b (drop a l) <-> In b l /\ b <> a.
Proof. unfold drop. rewrite filter_In. destruct (N.eqb_spec b a); cbn; intuition congruence. Qed.
Lemma drop_filter (p : N -> bool) a l : filter p (drop a l) = drop a (filter p l).
Proof. unfold drop. rewrite !filter_filter. apply filter_ext. intros x. apply andb_comm. Qed.
Lemma chain_drop_ok a l : In a l -> chain_drop a l = Some (drop a l).
Proof.
  intros H. unfold chain_drop. replace (existsb (N.eqb a) l) with true; [reflexivity|]. symmetry. apply existsb_exists. exists a. split; [exact H | apply N.eqb_refl].
Qed.
Lemma nth_error_upd_eq A (l : list A) i x : (i < length l)%nat -> nth_error (upd l i x) i = Some x.
Proof. revert i; induction l as [| y r IH]; intros [| i] H; cbn in *; try lia; [reflexivity|]. apply IH; lia. Qed.
Lemma nth_error_upd_ne A (l : list A) i j x : i <> j -> nth_error (upd l i x) j = nth_error l j.
Proof. revert i j; induction l as [| y r IH]; intros [| i] [| j] H; cbn; try reflexivity; try lia. apply IH; lia. Qed.
Lemma nodup_concat A (L : list (list A)) :
  (forall i c, nth_error L i = Some c -> NoDup c) ->
  (forall i j c d x, nth_error L i = Some c -> nth_error L j = Some d -> In x c -> In x d -> i = j) -> NoDup (concat L).
Proof.
  induction L as [| c r IH]; intros H1 H2; [constructor|]. cbn [concat].
  assert (Hc : NoDup c) by exact (H1 O c eq_refl).
  assert (Hr : NoDup (concat r)).
  { apply IH; [intros i d Hi; exact (H1 (S i) d Hi)|]. intros i j d e x Hi Hj Hx Hy. pose proof (H2 (S i) (S j) d e x Hi Hj Hx Hy); lia. }
  assert (Hd : forall x, In x c -> ~ In x (concat r)).
  { intros x Hx Hy. apply in_concat in Hy. destruct Hy as (d & Hd & Hxd). apply In_nth_error in Hd. destruct Hd as (j & Hj).
    pose proof (H2 O (S j) c d x eq_refl Hj Hx Hxd). lia. }
  clear -Hc Hr Hd. induction c as [| x t IH]; [exact Hr|]. inversion Hc; subst. cbn [app]. constructor.
  - intros X. apply in_app_or in X. destruct X as [X | X]; [auto | exact (Hd x (or_introl eq_refl) X)].
  - apply IH; auto. intros y Hy; apply Hd; right; exact Hy.
Qed.
Lemma filter_concat A (p : A -> bool) (L : list (list A)) i c : nth_error L i = Some c ->
  (forall j d, nth_error L j = Some d -> j <> i -> filter p d = []) -> filter p (concat L) = filter p c.
Proof.
  revert i; induction L as [| d r IH]; intros [| i] H1 H2; try discriminate; cbn [concat]; rewrite filter_app.
  - injection H1 as ->. replace (filter p (concat r)) with (@nil A); [apply app_nil_r|]. symmetry. apply filter_none. intros x Hx.
    apply in_concat in Hx. destruct Hx as (e & He & Hx). apply In_nth_error in He. destruct He as (j & Hj).
    pose proof (H2 (S j) e Hj (Nat.neq_succ_0 j)) as Hf. destruct (p x) eqn:Px; [|reflexivity].
    assert (X : In x (filter p e)) by (apply filter_In; auto). rewrite Hf in X. destruct X.
  - rewrite (H2 O d eq_refl (Nat.neq_0_succ i)). cbn [app]. apply (IH i H1). intros j e Hj Hn. apply (H2 (S j) e Hj). lia.
Qed.

Section Proofs.
Variables K V : Type.
Variable hash : N -> K -> N.
Variable cmp : K -> K -> bool.
Variable prime : N -> N.
Hypothesis Hh : handlers K hash cmp.
Hypothesis Hp : forall n, 0 < prime n < 2 ^ 32.
Notation entry := (entry K V).
Notation table := (table K V).
Notation memory := (N -> option entry).

Definition mk (m : memory) (k : K) (a : N) : bool := match m a with Some e => cmp k (ekey e) | None => false end.
Definition live (m : memory) (a : N) (p : K * V) : Prop := exists e, m a = Some e /\ (ekey e, eval e) = p /\ erem e = false.
Notation rep m := (Forall2 (live m)).
Definition place (h : table) (k : K) : nat := N.to_nat (hash (len h) k).

Record Inv (h : table) (ps : pairs K V) : Prop := mkInv {
  i_rep : rep (mem h) (iter h) ps;
  i_nodup : NoDup (iter h);
  i_next : forall a, In a (iter h) -> a < next h;
  i_len : length (tbl h) = N.to_nat (len h) /\ 0 < len h < 2 ^ 32;
  i_bucket : forall i c a, nth_error (tbl h) i = Some c -> In a c -> In a (iter h) /\ exists e, mem h a = Some e /\ place h (ekey e) = i;
  i_filter : forall k c, nth_error (tbl h) (place h k) = Some c -> filter (mk (mem h) k) c = filter (mk (mem h) k) (iter h);
  i_thr : thr h < 2 ^ 32;
  i_nr : nr h = N.of_nat (length ps);
  i_mgr : expandable h = false -> forall a e, In a (iter h) -> mem h a = Some e -> emgr e = (gen h, hash (len h) (ekey e)) }.

Lemma crefl k : cmp k k = true. Proof. apply (cmp_refl _ _ _ Hh). Qed.
Lemma csame k a b : cmp a b = true -> cmp k a = cmp k b.
Proof.
  intros H. destruct (cmp k a) eqn:E1.
  - symmetry. exact (cmp_trans _ _ _ Hh _ _ _ E1 H).
  - destruct (cmp k b) eqn:E2; [|reflexivity]. rewrite (cmp_sym _ _ _ Hh) in H. rewrite (cmp_trans _ _ _ Hh _ _ _ E2 H) in E1. discriminate.
Qed.
Lemma csame_l k a b : cmp a b = true -> cmp a k = cmp b k.
Proof. intros H. rewrite !(cmp_sym _ _ _ Hh _ k). apply csame; exact H. Qed.
Lemma u32_id x : x < 2 ^ 32 -> u32 x = x. Proof. intros H. unfold u32. apply N.mod_small; exact H. Qed.
Lemma hash_id l k : 0 < l < 2 ^ 32 -> u32 (hash l k) = hash l k.
Proof. intros H. apply u32_id. pose proof (hash_range _ _ _ Hh l k). lia. Qed.
Lemma bucket_id h ps k : Inv h ps -> bucket K V hash h k = hash (len h) k.
Proof. intros I. unfold bucket. apply hash_id. apply (i_len _ _ I). Qed.
Lemma place_in h ps k : Inv h ps -> exists c, nth_error (tbl h) (place h k) = Some c.
Proof.
  intros I. destruct (i_len _ _ I) as [L1 L2]. destruct (nth_error (tbl h) (place h k)) eqn:E; [eauto|]. apply nth_error_None in E.
  unfold place in E. pose proof (hash_range _ _ _ Hh (len h) k). lia.
Qed.
Lemma chain_ok h ps k : Inv h ps -> exists c, chain_at K V h (bucket K V hash h k) = Some c /\ nth_error (tbl h) (place h k) = Some c.
Proof. intros I. destruct (place_in h ps k I) as (c & Hc). exists c. unfold chain_at. rewrite (bucket_id h ps k I). auto. Qed.

(** * Looking for a key *)
Lemma rep_in m l ps a : rep m l ps -> In a l -> exists e, m a = Some e /\ erem e = false.
Proof. induction 1 as [| b p l ps (e & H1 & H2 & H3) R IH]; intros []; [subst; eauto | auto]. Qed.
Lemma rep_split m l ps a l1 l2 : rep m l ps -> l = l1 ++ a :: l2 ->
  exists p1 e p2, ps = p1 ++ (ekey e, eval e) :: p2 /\ m a = Some e /\ erem e = false /\ rep m l1 p1 /\ rep m l2 p2.
Proof.
  intros R ->. apply Forall2_app_inv_l in R. destruct R as (p1 & q & R1 & R2 & ->). inversion R2 as [| x y l' p2 (e & H1 & H2 & H3) R3]; subst.
  exists p1, e, p2. auto.
Qed.
Lemma lookup_app k (p1 p2 : pairs K V) : lookup cmp k (p1 ++ p2) = match lookup cmp k p1 with Some p => Some p | None => lookup cmp k p2 end.
Proof. induction p1 as [| p r IH]; [reflexivity|]. cbn [app lookup]. destruct (cmp k (fst p)); auto. Qed.
Lemma lookup_rep m l ps k : rep m l ps -> (forall a, In a l -> mk m k a = false) -> lookup cmp k ps = None.
Proof.
  induction 1 as [| a p l ps (e & H1 & H2 & H3) R IH]; intros H; [reflexivity|]. cbn [lookup]. pose proof (H a (or_introl eq_refl)) as X. unfold mk in X.
  rewrite H1 in X. subst p. cbn [fst]. rewrite X. apply IH. intros b Hb; apply H; right; exact Hb.
Qed.
Lemma lookup_mid k (p1 p2 : pairs K V) q : lookup cmp k p1 = None -> cmp k (fst q) = true -> lookup cmp k (p1 ++ q :: p2) = Some q.
Proof. intros H1 H2. rewrite lookup_app, H1. cbn [lookup]. rewrite H2. reflexivity. Qed.
Lemma replace_mid k (p1 p2 : pairs K V) q x : lookup cmp k p1 = None -> cmp k (fst q) = true -> replace cmp k x (p1 ++ q :: p2) = p1 ++ x :: p2.
Proof.
  induction p1 as [| p r IH]; cbn [lookup app replace]; intros H1 H2; [rewrite H2; reflexivity|].
  destruct (cmp k (fst p)); [discriminate|]. rewrite IH; auto.
Qed.
Lemma remove1_mid k (p1 p2 : pairs K V) q : lookup cmp k p1 = None -> cmp k (fst q) = true -> remove1 cmp k (p1 ++ q :: p2) = p1 ++ p2.
Proof.
  induction p1 as [| p r IH]; cbn [lookup app remove1]; intros H1 H2; [rewrite H2; reflexivity|].
  destruct (cmp k (fst p)); [discriminate|]. rewrite IH; auto.
Qed.

Lemma find_in_ok m k c : (forall a, In a c -> exists e, m a = Some e) ->
  match filter (mk m k) c with
  | [] => find_in K V cmp m k c = Some None
  | a :: _ => exists e, m a = Some e /\ cmp k (ekey e) = true /\ In a c /\ find_in K V cmp m k c = Some (Some (a, e))
  end.
Proof.
  induction c as [| a r IH]; intros H; [reflexivity|]. cbn [filter find_in]. destruct (H a (or_introl eq_refl)) as (e & He).
  unfold mk at 1. rewrite He. cbn [obind]. destruct (cmp k (ekey e)) eqn:C.
  - exists e. repeat split; auto. left; reflexivity.
  - assert (Hr : forall b, In b r -> exists e, m b = Some e) by (intros b Hb; apply H; right; exact Hb).
    specialize (IH Hr). destruct (filter (mk m k) r) as [| b t]; [exact IH|]. destruct IH as (e' & H1 & H2 & H3 & H4). exists e'. repeat split; auto. right; exact H3.
Qed.

(** The entry found for a key, and its place in the chain of all entries. *)
Inductive found (h : table) (ps : pairs K V) (k : K) : option (N * entry) -> Prop :=
| fnone : lookup cmp k ps = None -> found h ps k None
| fsome a e l1 l2 p1 p2 c : iter h = l1 ++ a :: l2 -> ps = p1 ++ (ekey e, eval e) :: p2 -> mem h a = Some e -> erem e = false ->
    rep (mem h) l1 p1 -> rep (mem h) l2 p2 -> cmp k (ekey e) = true -> lookup cmp k p1 = None ->
    nth_error (tbl h) (place h k) = Some c -> In a c -> (forall b, In b l1 -> mk (mem h) k b = false) -> found h ps k (Some (a, e)).
Lemma find_key_ok h ps k : Inv h ps -> exists r, find_key K V hash cmp h k = Some r /\ found h ps k r.
Proof.
  intros I. destruct (chain_ok h ps k I) as (c & C1 & C2). unfold find_key. rewrite C1. cbn [obind].
  assert (Hd : forall a, In a c -> exists e, mem h a = Some e).
  { intros a Ha. destruct (i_bucket _ _ I _ _ _ C2 Ha) as (_ & e & He & _). eauto. }
  pose proof (find_in_ok (mem h) k c Hd) as F. pose proof (i_filter _ _ I k c C2) as E. rewrite E in F.
  destruct (filter (mk (mem h) k) (iter h)) as [| a t] eqn:Ef.
  - exists None. split; [exact F|]. constructor. apply (lookup_rep (mem h) (iter h)); [apply (i_rep _ _ I)|]. intros a Ha.
    destruct (mk (mem h) k a) eqn:M; [|reflexivity]. assert (X : In a (filter (mk (mem h) k) (iter h))) by (apply filter_In; auto). rewrite Ef in X. destruct X.
  - destruct F as (e & H1 & H2 & H3 & H4). exists (Some (a, e)). split; [exact H4|].
    destruct (filter_split _ _ _ _ _ Ef) as (l1 & l2 & E1 & E2 & E3 & E4).
    destruct (rep_split _ _ _ _ _ _ (i_rep _ _ I) E1) as (p1 & e' & p2 & Q1 & Q2 & Q3 & Q4 & Q5). rewrite H1 in Q2. injection Q2 as <-.
    eapply fsome; eauto. apply (lookup_rep (mem h) l1); auto.
Qed.

(** * Rewriting one entry in place *)
Lemma rep_ext m m' l ps : rep m l ps -> (forall a, In a l -> m' a = m a) -> rep m' l ps.
Proof.
  induction 1 as [| a p l ps (e & H1 & H2 & H3) R IH]; intros H; constructor.
  - exists e. rewrite (H a (or_introl eq_refl)). auto.
  - apply IH. intros b Hb; apply H; right; exact Hb.
Qed.
Lemma set_mem_eq m a e : set_mem K V m a e a = e. Proof. unfold set_mem. rewrite N.eqb_refl. reflexivity. Qed.
Lemma set_mem_ne m a e b : b <> a -> set_mem K V m a e b = m b. Proof. intros H. unfold set_mem. destruct (N.eqb_spec b a); [contradiction|reflexivity]. Qed.
Lemma inv_rewrite h ps a e l1 l2 p1 p2 k' v' fl : Inv h ps -> iter h = l1 ++ a :: l2 -> ps = p1 ++ (ekey e, eval e) :: p2 -> mem h a = Some e ->
  rep (mem h) l1 p1 -> rep (mem h) l2 p2 -> cmp k' (ekey e) = true ->
  Inv (with_mem K V h (set_mem K V (mem h) a (Some (mkE k' v' (emgr e) false fl)))) (p1 ++ (k', v') :: p2).
Proof.
  intros I Ei Ep Em R1 R2 C. set (m' := set_mem K V (mem h) a _).
  assert (Na : ~ In a l1 /\ ~ In a l2).
  { pose proof (i_nodup _ _ I) as D. rewrite Ei in D. apply NoDup_remove_2 in D. split; intros X; apply D, in_or_app; auto. }
  assert (Hmk : forall k b, mk m' k b = mk (mem h) k b).
  { intros k b. unfold mk, m', set_mem. destruct (N.eqb_spec b a) as [-> |]; [|reflexivity]. rewrite Em. cbn [ekey]. apply csame; exact C. }
  assert (Hpl : hash (len h) k' = hash (len h) (ekey e)) by (apply (hash_equal _ _ _ Hh); exact C).
  constructor; cbn [with_mem mem iter tbl len thr next nr expandable gen].
  - rewrite Ei. apply Forall2_app; [apply (rep_ext (mem h)); auto; intros b Hb; apply set_mem_ne; intros ->; tauto|]. constructor.
    + eexists. split; [apply set_mem_eq|]. auto.
    + apply (rep_ext (mem h)); auto. intros b Hb; apply set_mem_ne; intros ->; tauto.
  - apply (i_nodup _ _ I).
  - apply (i_next _ _ I).
  - apply (i_len _ _ I).
  - intros i c b Hi Hb. destruct (i_bucket _ _ I i c b Hi Hb) as (B1 & e0 & B2 & B3). split; [exact B1|].
    destruct (N.eq_dec b a) as [-> | Hn].
    + eexists. split; [apply set_mem_eq|]. rewrite Em in B2. injection B2 as <-. unfold place in *. cbn [with_mem len ekey]. rewrite Hpl. exact B3.
    + exists e0. unfold m'. rewrite set_mem_ne; auto.
  - intros k c Hc. rewrite !(filter_ext _ _ (Hmk k)). apply (i_filter _ _ I k c Hc).
  - apply (i_thr _ _ I).
  - rewrite (i_nr _ _ I), Ep, !app_length. reflexivity.
  - intros X b e0 Hb. unfold m'. destruct (N.eq_dec b a) as [-> | Hn].
    + rewrite set_mem_eq. injection 1 as <-. cbn [emgr ekey]. rewrite Hpl. apply (i_mgr _ _ I X a e Hb Em).
    + rewrite set_mem_ne by exact Hn. apply (i_mgr _ _ I X b e0 Hb).
Qed.

(** * Releasing an entry *)
Lemma inv_release h h1 ps a e e' l1 l2 p1 p2 f : Inv h ps -> iter h = l1 ++ a :: l2 -> ps = p1 ++ (ekey e, eval e) :: p2 -> mem h a = Some e ->
  rep (mem h) l1 p1 -> rep (mem h) l2 p2 -> N.of_nat (length ps) < 2 ^ 32 ->
  len h1 = len h -> thr h1 = thr h -> tbl h1 = tbl h -> iter h1 = iter h -> gen h1 = gen h -> nr h1 = nr h -> expandable h1 = expandable h -> next h1 = next h ->
  (forall b, b <> a -> mem h1 b = mem h b) ->
  exists h2, release K V h1 (gen h, hash (len h) (ekey e)) a e' f = Some (h2, freed K V f e') /\ Inv h2 (p1 ++ p2) /\ iter h2 = l1 ++ l2 /\
    cur h2 = cur h1 /\ expandable h2 = expandable h /\ (forall b, b <> a -> mem h2 b = mem h b).
Proof.
  intros I Ei Ep Em R1 R2 Bd El Eth Et Eit Eg En Ee Enx Hm.
  destruct (place_in h ps (ekey e) I) as (c & Hc). unfold place in Hc.
  assert (Na : ~ In a l1 /\ ~ In a l2).
  { pose proof (i_nodup _ _ I) as D. rewrite Ei in D. apply NoDup_remove_2 in D. split; intros X; apply D, in_or_app; auto. }
  assert (Hac : In a c).
  { assert (X : In a (filter (mk (mem h) (ekey e)) c)).
    { rewrite (i_filter _ _ I (ekey e) c Hc). apply filter_In. split; [rewrite Ei; apply in_elt|]. unfold mk. rewrite Em. apply crefl. }
    apply filter_In in X. apply X. }
  unfold release, del_at, chain_at. cbn [fst snd]. rewrite Eg, N.eqb_refl, Et, Hc. cbn [obind]. rewrite (chain_drop_ok a c Hac). cbn [obind].
  rewrite Eit, chain_drop_ok by (rewrite Ei; apply in_elt). cbn [obind]. eexists. split; [reflexivity|].
  assert (Dr : drop a (iter h) = l1 ++ l2) by (rewrite Ei; apply drop_mid; rewrite <- Ei; apply (i_nodup _ _ I)).
  rewrite Dr, El, En, Ee. cbn [mem iter tbl len next nr expandable gen cur].
  set (m2 := set_mem K V (mem h1) a None).
  assert (Hm2 : forall b, b <> a -> m2 b = mem h b) by (intros b Hb; unfold m2; rewrite set_mem_ne; auto).
  assert (Hin : forall b, In b (l1 ++ l2) -> In b (iter h) /\ b <> a).
  { intros b Hb. rewrite Ei. split; [|intros ->; apply in_app_or in Hb; tauto]. apply in_or_app. apply in_app_or in Hb. cbn. tauto. }
  assert (Hlt : (N.to_nat (hash (len h) (ekey e)) < length (tbl h))%nat) by (apply nth_error_Some; rewrite Hc; discriminate).
  split; [|split; [reflexivity|split; [reflexivity|split; [reflexivity|exact Hm2]]]].
  constructor; cbn [mem iter tbl len thr next nr expandable gen].
  - apply Forall2_app; apply (rep_ext (mem h)); auto; intros b Hb; apply Hm2; intros ->; tauto.
  - pose proof (i_nodup _ _ I) as D. rewrite Ei in D. apply NoDup_remove_1 in D. exact D.
  - intros b Hb. rewrite Enx. apply (i_next _ _ I). apply Hin; exact Hb.
  - rewrite upd_length. apply (i_len _ _ I).
  - intros i d b Hi Hb.
    assert (Hold : exists d', nth_error (tbl h) i = Some d' /\ In b d' /\ b <> a).
    { destruct (Nat.eq_dec (N.to_nat (hash (len h) (ekey e))) i) as [<- | Hn].
      - rewrite nth_error_upd_eq in Hi by exact Hlt. injection Hi as <-. apply drop_in in Hb. eauto.
      - rewrite nth_error_upd_ne in Hi by exact Hn. exists d. repeat split; auto. intros ->.
        destruct (i_bucket _ _ I i d a Hi Hb) as (_ & e0 & B2 & B3). rewrite Em in B2. injection B2 as <-. auto. }
    destruct Hold as (d' & Hd & Hbd & Hn). destruct (i_bucket _ _ I i d' b Hd Hbd) as (B1 & e0 & B2 & B3). split.
    + rewrite <- Dr. apply drop_in. auto.
    + exists e0. rewrite Hm2 by exact Hn. auto.
  - intros k d Hd. unfold place in Hd. cbn [len] in Hd.
    assert (Hx : exists d', nth_error (tbl h) (place h k) = Some d' /\ d = drop a d').
    { unfold place. destruct (Nat.eq_dec (N.to_nat (hash (len h) (ekey e))) (N.to_nat (hash (len h) k))) as [Eq | Hn].
      - rewrite <- Eq in Hd |- *. rewrite nth_error_upd_eq in Hd by exact Hlt. injection Hd as <-. eauto.
      - rewrite nth_error_upd_ne in Hd by exact Hn. exists d. split; [exact Hd|]. symmetry. apply drop_none. intros X.
        destruct (i_bucket _ _ I _ d a Hd X) as (_ & e0 & B2 & B3). rewrite Em in B2. injection B2 as <-. auto. }
    destruct Hx as (d' & Hd' & ->). rewrite <- Dr.
    rewrite !(filter_ext_on _ (mk m2 k) (mk (mem h) k)) by (intros b Hb; apply drop_in in Hb; unfold mk; rewrite Hm2 by apply Hb; reflexivity).
    rewrite !drop_filter, (i_filter _ _ I k d' Hd'). reflexivity.
  - rewrite Eth. apply (i_thr _ _ I).
  - rewrite (i_nr _ _ I). subst ps. rewrite !app_length in *. cbn [length] in *. clear - Bd. unfold u32.
    replace (N.of_nat (length p1 + S (length p2)) + (2 ^ 32 - 1)) with (N.of_nat (length p1 + length p2) + 1 * 2 ^ 32) by lia.
    rewrite N.mod_add by (clear; lia). apply N.mod_small. lia.
  - intros X b e0 Hb. rewrite Hm2 by apply Hin, Hb. apply (i_mgr _ _ I X). apply Hin, Hb.
Qed.

(** * Growing and shrinking *)
Definition sorted_in (l : N) (m : memory) (j : nat) (a : N) : bool := match m a with Some e => Nat.eqb (N.to_nat (hash l (ekey e))) j | None => false end.
Definition table_of (l : N) (m : memory) (c : list N) : list (list N) := map (fun j => filter (sorted_in l m j) c) (seq 0 (N.to_nat l)).
Lemma table_of_nth l m c j : (j < N.to_nat l)%nat -> nth_error (table_of l m c) j = Some (filter (sorted_in l m j) c).
Proof.
  intros H. unfold table_of. rewrite nth_error_map. replace (nth_error (seq 0 (N.to_nat l)) j) with (Some j); [reflexivity|].
  symmetry. rewrite nth_error_nth' with (d := O) by (rewrite seq_length; exact H). rewrite seq_nth by exact H. reflexivity.
Qed.
Lemma table_of_snoc l m c a e : 0 < l < 2 ^ 32 -> m a = Some e -> let i := N.to_nat (u32 (hash l (ekey e))) in
  nth_error (table_of l m c) i = Some (filter (sorted_in l m i) c) /\ upd (table_of l m c) i (filter (sorted_in l m i) c ++ [a]) = table_of l m (c ++ [a]).
Proof.
  intros Hl He i. unfold i. rewrite hash_id by exact Hl. clear i. set (i := N.to_nat (hash l (ekey e))).
  assert (Hi : (i < N.to_nat l)%nat) by (unfold i; pose proof (hash_range _ _ _ Hh l (ekey e)); lia).
  split; [apply table_of_nth; exact Hi|]. apply nth_error_ext. intros j.
  destruct (le_lt_dec (N.to_nat l) j) as [Hj | Hj].
  - rewrite !(proj2 (nth_error_None _ _)); [reflexivity | |]; [|rewrite upd_length]; unfold table_of; rewrite map_length, seq_length; exact Hj.
  - rewrite (table_of_nth l m (c ++ [a])) by exact Hj. rewrite filter_app. cbn [filter]. unfold sorted_in at 3. rewrite He. fold i.
    destruct (Nat.eqb_spec i j) as [<- | Hn].
    + apply nth_error_upd_eq. unfold table_of. rewrite map_length, seq_length. exact Hi.
    + rewrite nth_error_upd_ne by exact Hn. rewrite app_nil_r. apply table_of_nth; exact Hj.
Qed.
Lemma move_chain_ok l m c : 0 < l < 2 ^ 32 -> (forall a, In a c -> exists e, m a = Some e) -> forall d,
  move_chain K V hash l m (table_of l m d) c = Some (table_of l m (d ++ c)).
Proof.
  intros Hl. induction c as [| a r IH]; intros H d; [rewrite app_nil_r; reflexivity|]. cbn [move_chain].
  destruct (H a (or_introl eq_refl)) as (e & He). rewrite He. cbn [obind]. destruct (table_of_snoc l m d a e Hl He) as (T1 & T2). cbn zeta.
  rewrite T1. cbn [obind]. rewrite T2, IH by (intros b Hb; apply H; right; exact Hb). rewrite <- app_assoc. reflexivity.
Qed.
Lemma move_all_ok l m old : 0 < l < 2 ^ 32 -> (forall a, In a (concat old) -> exists e, m a = Some e) -> forall d,
  move_all K V hash l m (table_of l m d) old = Some (table_of l m (d ++ concat old)).
Proof.
  intros Hl. induction old as [| c r IH]; intros H d; [cbn [concat]; rewrite app_nil_r; reflexivity|]. cbn [move_all concat] in *.
  rewrite move_chain_ok by (auto; intros a Ha; apply H, in_or_app; auto). cbn [obind].
  rewrite IH by (intros a Ha; apply H, in_or_app; auto). rewrite <- app_assoc. reflexivity.
Qed.
Lemma table_of_nil l m : repeat [] (N.to_nat l) = table_of l m [].
Proof. unfold table_of. cbn [filter]. generalize (N.to_nat l), O. induction n as [| n IH]; intros s; [reflexivity|]. cbn [seq map repeat]. rewrite <- IH. reflexivity. Qed.

Lemma concat_in h ps a : Inv h ps -> In a (concat (tbl h)) <-> In a (iter h).
Proof.
  intros I. rewrite in_concat. split.
  - intros (c & Hc & Ha). apply In_nth_error in Hc. destruct Hc as (i & Hi). apply (i_bucket _ _ I i c a Hi Ha).
  - intros Ha. destruct (rep_in _ _ _ _ (i_rep _ _ I) Ha) as (e & He & _). destruct (place_in h ps (ekey e) I) as (c & Hc). exists c.
    split; [eapply nth_error_In; eauto|].
    assert (X : In a (filter (mk (mem h) (ekey e)) c)).
    { rewrite (i_filter _ _ I (ekey e) c Hc). apply filter_In. split; [exact Ha|]. unfold mk. rewrite He. apply crefl. }
    apply filter_In in X. apply X.
Qed.
Lemma filter_concat_iter h ps k : Inv h ps -> filter (mk (mem h) k) (concat (tbl h)) = filter (mk (mem h) k) (iter h).
Proof.
  intros I. destruct (place_in h ps k I) as (c & Hc). rewrite <- (i_filter _ _ I k c Hc). apply (filter_concat _ _ _ _ _ Hc).
  intros j d Hj Hn. apply filter_none. intros a Ha. destruct (i_bucket _ _ I j d a Hj Ha) as (_ & e & He & Hpl). unfold mk. rewrite He.
  destruct (cmp k (ekey e)) eqn:C; [|reflexivity]. destruct Hn. rewrite <- Hpl. unfold place. rewrite (hash_equal _ _ _ Hh (len h) _ _ C). reflexivity.
Qed.
Lemma move_ok h ps l t : Inv h ps -> 0 < l < 2 ^ 32 -> t < 2 ^ 32 -> expandable h = true ->
  exists h', move K V hash h l t = Some h' /\ Inv h' ps /\ iter h' = iter h /\ mem h' = mem h /\ cur h' = cur h /\ expandable h' = true /\ len h' = l.
Proof.
  intros I Hl Ht Hx. unfold move. destruct (i_len _ _ I) as [L1 L2]. rewrite u32_id by apply L2. rewrite <- L1, firstn_all, (table_of_nil l (mem h)).
  assert (Hd : forall a, In a (concat (tbl h)) -> exists e, mem h a = Some e).
  { intros a Ha. apply (concat_in h ps a I) in Ha. destruct (rep_in _ _ _ _ (i_rep _ _ I) Ha) as (e & He & _). eauto. }
  rewrite move_all_ok by auto. cbn [obind app]. eexists. split; [reflexivity|]. split; [|auto 10].
  constructor; cbn [mem iter tbl len thr next nr expandable gen].
  - apply (i_rep _ _ I).
  - apply (i_nodup _ _ I).
  - apply (i_next _ _ I).
  - split; [|exact Hl]. unfold table_of. rewrite map_length, seq_length. reflexivity.
  - intros i c a Hi Ha.
    assert (X : (i < N.to_nat l)%nat).
    { assert (Y : nth_error (table_of l (mem h) (concat (tbl h))) i <> None) by congruence. apply nth_error_Some in Y.
      unfold table_of in Y. rewrite map_length, seq_length in Y. exact Y. }
    rewrite table_of_nth in Hi by exact X. injection Hi as <-. apply filter_In in Ha. destruct Ha as [Ha S0]. split; [apply (concat_in h ps a I); exact Ha|].
    unfold sorted_in in S0. destruct (mem h a) as [e |]; [|discriminate]. exists e. split; [reflexivity|]. apply Nat.eqb_eq in S0. exact S0.
  - intros k c Hc. unfold place in Hc. cbn [len] in Hc. rewrite table_of_nth in Hc by (pose proof (hash_range _ _ _ Hh l k); lia). injection Hc as <-.
    rewrite filter_filter, <- (filter_concat_iter h ps k I). apply filter_ext. intros a. unfold sorted_in, mk. destruct (mem h a) as [e |]; [|reflexivity].
    destruct (cmp k (ekey e)) eqn:C; [|apply andb_false_r]. rewrite (hash_equal _ _ _ Hh l _ _ C), Nat.eqb_refl. reflexivity.
  - exact Ht.
  - apply (i_nr _ _ I).
  - congruence.
Qed.
Lemma u32_lt x : u32 x < 2 ^ 32. Proof. unfold u32. apply N.mod_upper_bound. clear; lia. Qed.
Lemma expand_ok h ps t : Inv h ps -> expandable h = true ->
  exists h', expand K V hash prime t h = Some h' /\ Inv h' ps /\ cur h' = cur h /\ expandable h' = true /\ iter h' = iter h /\ mem h' = mem h.
Proof.
  intros I Ex. unfold expand. destruct t; [|exists h; auto 10].
  match goal with |- context [move _ _ _ h ?l ?t] => destruct (move_ok h ps l t I) as (h' & H1 & H2 & H3 & H4 & H5 & H6 & _) end; [|apply u32_lt|exact Ex|exists h'; auto 10].
  destruct (use_prime h); [apply Hp|]. destruct (i_len _ _ I) as [_ L]. rewrite (u32_id (len h)) by apply L. split; [|apply u32_lt]. clear - L. unfold u32.
  destruct (N.eq_dec ((2 * len h + (2 ^ 32 - 1)) mod 2 ^ 32) 0) as [Z | Z]; [|clear - Z; lia]. apply N.mod_divides in Z; [|clear; lia].
  destruct Z as (c & Z). clear - Z. exfalso. lia.
Qed.
Lemma reduce_ok h ps t : Inv h ps -> expandable h = true ->
  exists h', reduce K V hash prime t h = Some h' /\ Inv h' ps /\ cur h' = cur h /\ expandable h' = true /\ iter h' = iter h /\ mem h' = mem h.
Proof.
  intros I Ex. unfold reduce. destruct t; [|exists h; auto 10].
  match goal with |- context [move _ _ _ h ?l ?t] => destruct (move_ok h ps l t I) as (h' & H1 & H2 & H3 & H4 & H5 & H6 & _) end; [|apply u32_lt|exact Ex|exists h'; auto 10].
  assert (B : (if use_prime h then prime (thr h / 4) else thr h / 4) < 2 ^ 32).
  { destruct (use_prime h); [apply Hp|]. pose proof (i_thr _ _ I) as T. clear - T. apply N.le_lt_trans with (thr h); [|exact T]. apply N.div_le_upper_bound; lia. }
  destruct (N.eqb_spec (if use_prime h then prime (thr h / 4) else thr h / 4) 0) as [Z | Z]; [clear; lia | clear - Z B; lia].
Qed.
Lemma resize_ok h ps t1 t2 : Inv h ps -> exists h', resize K V hash prime t1 t2 h = Some h' /\ Inv h' ps /\ cur h' = cur h /\ expandable h' = expandable h /\
  iter h' = iter h /\ mem h' = mem h /\ (expandable h = false -> h' = h).
Proof.
  intros I. unfold resize. destruct (expandable h) eqn:Ex; [|cbn [andb obind]; rewrite Ex; cbn [andb]; exists h; auto 10]. cbn [andb].
  assert (S1 : exists h', (if thr h <? nr h then expand K V hash prime t1 h else Some h) = Some h' /\ Inv h' ps /\ cur h' = cur h /\ expandable h' = true /\ iter h' = iter h /\ mem h' = mem h).
  { destruct (thr h <? nr h); [|exists h; auto 10]. apply expand_ok; auto. }
  destruct S1 as (h1 & H1 & I1 & C1 & X1 & It1 & M1). rewrite H1. cbn [obind]. rewrite X1. cbn [andb].
  assert (S2 : exists h', (if nr h1 <=? thr h1 / 8 then reduce K V hash prime t2 h1 else Some h1) = Some h' /\ Inv h' ps /\ cur h' = cur h1 /\ expandable h' = true /\ iter h' = iter h1 /\ mem h' = mem h1).
  { destruct (nr h1 <=? thr h1 / 8); [|exists h1; auto 10]. apply reduce_ok; auto. }
  destruct S2 as (h2 & H2 & I2 & C2 & X2 & It2 & M2). exists h2. split; [exact H2|]. split; [exact I2|]. repeat split; congruence.
Qed.

(** * Adding an entry *)
Lemma add_ok h ps t3 k v : Inv h ps -> N.of_nat (length ps) + 1 < 2 ^ 32 ->
  exists h', add_entry K V h (gen h, hash (len h) k) t3 k v = Some (h', t3) /\ Inv h' (if t3 then ps ++ [(k, v)] else ps) /\ cur h' = cur h /\ expandable h' = expandable h.
Proof.
  intros I Bd. unfold add_entry. destruct t3; [|exists h; auto]. destruct (place_in h ps k I) as (c & Hc). unfold place in Hc.
  unfold add_at, chain_at. cbn [fst snd]. rewrite N.eqb_refl, Hc. cbn [obind]. eexists. split; [reflexivity|].
  set (a := next h). set (e := mkE k v (gen h, hash (len h) k) false FNone). split; [|auto].
  assert (Na : forall b, In b (iter h) -> b <> a) by (intros b Hb ->; pose proof (i_next _ _ I a Hb); unfold a in *; lia).
  set (m2 := set_mem K V (mem h) a (Some e)).
  assert (Hm2 : forall b, In b (iter h) -> m2 b = mem h b) by (intros b Hb; unfold m2; apply set_mem_ne; auto).
  assert (Hma : m2 a = Some e) by apply set_mem_eq.
  assert (Hlt : (N.to_nat (hash (len h) k) < length (tbl h))%nat) by (apply nth_error_Some; rewrite Hc; discriminate).
  constructor; cbn [mem iter tbl len thr next nr expandable gen].
  - apply Forall2_app; [apply (rep_ext (mem h)); [apply (i_rep _ _ I) | exact Hm2]|]. constructor; [|constructor]. exists e. auto.
  - apply (proj1 (Permutation_NoDup' (Permutation_cons_append (iter h) a))). constructor; [intros X; exact (Na a X eq_refl) | apply (i_nodup _ _ I)].
  - intros b Hb. apply in_app_or in Hb. destruct Hb as [Hb | [<- | []]]; [pose proof (i_next _ _ I b Hb); unfold a; lia | lia].
  - rewrite upd_length. apply (i_len _ _ I).
  - intros i d b Hi Hb. destruct (Nat.eq_dec (N.to_nat (hash (len h) k)) i) as [<- | Hn].
    + rewrite nth_error_upd_eq in Hi by exact Hlt. injection Hi as <-. apply in_app_or in Hb. destruct Hb as [Hb | [<- | []]].
      * destruct (i_bucket _ _ I _ c b Hc Hb) as (B1 & e0 & B2 & B3). split; [apply in_or_app; auto|]. exists e0. rewrite Hm2 by exact B1. auto.
      * split; [apply in_or_app; cbn; auto|]. exists e. auto.
    + rewrite nth_error_upd_ne in Hi by exact Hn. destruct (i_bucket _ _ I _ d b Hi Hb) as (B1 & e0 & B2 & B3). split; [apply in_or_app; auto|].
      exists e0. rewrite Hm2 by exact B1. auto.
  - intros k' d Hd. unfold place in Hd. cbn [len] in Hd. rewrite filter_app.
    assert (Hold : forall d', nth_error (tbl h) (place h k') = Some d' -> filter (mk m2 k') d' = filter (mk m2 k') (iter h)).
    { intros d' Hd'. rewrite !(filter_ext_on _ (mk m2 k') (mk (mem h) k')).
      - apply (i_filter _ _ I k' d' Hd').
      - intros b Hb. unfold mk. rewrite Hm2; auto.
      - intros b Hb. unfold mk. rewrite Hm2; auto. apply (i_bucket _ _ I _ d' b Hd' Hb). }
    destruct (Nat.eq_dec (N.to_nat (hash (len h) k)) (N.to_nat (hash (len h) k'))) as [Eq | Hn].
    + rewrite <- Eq in Hd. rewrite nth_error_upd_eq in Hd by exact Hlt. injection Hd as <-. rewrite filter_app. f_equal. apply Hold. unfold place. rewrite <- Eq. exact Hc.
    + rewrite nth_error_upd_ne in Hd by exact Hn. rewrite (Hold d Hd). cbn [filter]. unfold mk at 3. rewrite Hma. cbn [ekey e].
      destruct (cmp k' k) eqn:C; [|rewrite app_nil_r; reflexivity]. destruct Hn. rewrite (hash_equal _ _ _ Hh _ _ _ C). reflexivity.
  - apply (i_thr _ _ I).
  - rewrite (i_nr _ _ I), app_length. cbn [length]. rewrite u32_id by exact Bd. clear; lia.
  - intros X b e0 Hb Hm. apply in_app_or in Hb. destruct Hb as [Hb | [<- | []]].
    + rewrite Hm2 in Hm by exact Hb. apply (i_mgr _ _ I X b e0 Hb Hm).
    + rewrite Hma in Hm. injection Hm as <-. reflexivity.
Qed.

(** * Counting and listing *)
Lemma count_filter (p : N -> bool) l x : p x = true -> count_occ N.eq_dec (filter p l) x = count_occ N.eq_dec l x.
Proof.
  intros H. induction l as [| y r IH]; [reflexivity|]. cbn [filter count_occ]. destruct (N.eq_dec y x) as [-> | Hn].
  - rewrite H. cbn [count_occ]. destruct (N.eq_dec x x); [|contradiction]. rewrite IH. reflexivity.
  - destruct (p y); [cbn [count_occ]; destruct (N.eq_dec y x); [contradiction|]|]; exact IH.
Qed.
Lemma bucket_nodup h ps i c : Inv h ps -> nth_error (tbl h) i = Some c -> NoDup c.
Proof.
  intros I Hc. apply (NoDup_count_occ N.eq_dec). intros a. destruct (in_dec N.eq_dec a c) as [Ha | Ha].
  - destruct (i_bucket _ _ I i c a Hc Ha) as (B1 & e & B2 & B3). subst i.
    assert (M : mk (mem h) (ekey e) a = true) by (unfold mk; rewrite B2; apply crefl).
    rewrite <- (count_filter (mk (mem h) (ekey e)) c a M), (i_filter _ _ I _ c Hc), (count_filter _ _ _ M).
    apply (proj1 (NoDup_count_occ N.eq_dec (iter h)) (i_nodup _ _ I)).
  - rewrite (proj1 (count_occ_not_In N.eq_dec c a) Ha). clear; lia.
Qed.
Lemma concat_perm h ps : Inv h ps -> Permutation (concat (tbl h)) (iter h).
Proof.
  intros I. apply NoDup_Permutation; [|apply (i_nodup _ _ I)|intros a; apply (concat_in h ps a I)].
  apply nodup_concat; [intros i c; apply (bucket_nodup h ps i c I)|]. intros i j c d a Hi Hj Ha Hb.
  destruct (i_bucket _ _ I i c a Hi Ha) as (_ & e & E1 & E2). destruct (i_bucket _ _ I j d a Hj Hb) as (_ & e' & E3 & E4). congruence.
Qed.
Lemma bucket_short h ps i c : Inv h ps -> nth_error (tbl h) i = Some c -> (length c <= length (iter h))%nat.
Proof. intros I Hc. apply NoDup_incl_length; [apply (bucket_nodup h ps i c I Hc)|]. intros a Ha. apply (i_bucket _ _ I i c a Hc Ha). Qed.
Lemma bucket_defined h ps i c a : Inv h ps -> nth_error (tbl h) i = Some c -> In a c -> exists e, mem h a = Some e /\ erem e = false.
Proof. intros I Hc Ha. apply (rep_in _ _ _ _ (i_rep _ _ I)). apply (i_bucket _ _ I i c a Hc Ha). Qed.

Definition vals (m : memory) (l : list N) : list V := flat_map (fun a => match m a with Some e => [eval e] | None => [] end) l.
Lemma vals_rep m l ps k : rep m l ps -> map snd (filter (fun p => cmp k (fst p)) ps) = vals m (filter (mk m k) l).
Proof.
  induction 1 as [| a p l ps (e & H1 & <- & H3) R IH]; [reflexivity|]. cbn [filter fst]. unfold mk at 1. rewrite H1. destruct (cmp k (ekey e)); [|exact IH].
  cbn [map snd vals flat_map]. rewrite H1. cbn [app]. f_equal. exact IH.
Qed.
Lemma exists_rep m l ps k : rep m l ps -> existsb (fun p => cmp k (fst p)) ps = existsb (mk m k) l.
Proof.
  induction 1 as [| a p l ps (e & H1 & <- & H3) R IH]; [reflexivity|]. cbn [existsb fst]. unfold mk at 1. rewrite H1, IH. reflexivity.
Qed.
Lemma existsb_filter A (p : A -> bool) l : existsb p l = match filter p l with [] => false | _ => true end.
Proof. induction l as [| x r IH]; [reflexivity|]. cbn [existsb filter]. destruct (p x); [reflexivity | exact IH]. Qed.
Lemma find_from_ok m k c : (forall a, In a c -> exists e, m a = Some e /\ erem e = false) ->
  match filter (mk m k) c with
  | [] => find_from K V cmp m k c = Some None
  | a :: t => exists e rest c1, m a = Some e /\ c = c1 ++ a :: rest /\ filter (mk m k) rest = t /\ find_from K V cmp m k c = Some (Some (eval e, rest))
  end.
Proof.
  induction c as [| a r IH]; intros H; [reflexivity|]. cbn [filter find_from]. destruct (H a (or_introl eq_refl)) as (e & He & Hr).
  unfold mk at 1. rewrite He. cbn [obind]. destruct (cmp k (ekey e)) eqn:C.
  - exists e, r, []. rewrite Hr. auto.
  - assert (H' : forall b, In b r -> exists e, m b = Some e /\ erem e = false) by (intros b Hb; apply H; right; exact Hb).
    specialize (IH H'). destruct (filter (mk m k) r) as [| b t] eqn:Ef; [exact IH|]. destruct IH as (e' & rest & c1 & H1 & H2 & H3 & H4).
    exists e', rest, (a :: c1). subst r. auto.
Qed.
Lemma search_all_ok h ps k c : Inv h ps -> chain_at K V h (bucket K V hash h k) = Some c -> forall fuel ctx d,
  d = match ctx with [] => c | _ => ctx end -> (forall a, In a d -> exists e, mem h a = Some e /\ erem e = false) -> (length d < fuel)%nat ->
  search_all K V hash cmp fuel h k ctx = Some (vals (mem h) (filter (mk (mem h) k) d)).
Proof.
  intros I Hc. induction fuel as [| f IH]; intros ctx d Ed Hd Hf; [lia|]. cbn [search_all]. unfold search_iterator.
  replace (match ctx with [] => chain_at K V h (bucket K V hash h k) | _ :: _ => Some ctx end) with (Some d) by (subst d; destruct ctx; auto).
  cbn [obind]. pose proof (find_from_ok (mem h) k d Hd) as F. destruct (filter (mk (mem h) k) d) as [| a t].
  - rewrite F. reflexivity.
  - destruct F as (e & rest & c1 & F1 & F2 & F3 & F4). rewrite F4. cbn [obind]. unfold vals. cbn [flat_map]. rewrite F1. cbn [app].
    destruct rest as [| b r]; [subst t; reflexivity|]. rewrite (IH (b :: r) (b :: r) eq_refl).
    + cbn [obind]. rewrite F3. reflexivity.
    + intros x Hx. apply Hd. rewrite F2. apply in_or_app. right; right; exact Hx.
    + clear - Hf F2. subst d. rewrite app_length in Hf. cbn [length] in *. lia.
Qed.
Lemma exist_in_ok m k c : (forall a, In a c -> exists e, m a = Some e /\ erem e = false) -> exist_in K V cmp m k c = Some (existsb (mk m k) c).
Proof.
  induction c as [| a r IH]; intros H; [reflexivity|]. cbn [exist_in existsb]. destruct (H a (or_introl eq_refl)) as (e & He & Hr).
  unfold mk at 1. rewrite He. cbn [obind]. rewrite Hr. cbn [negb andb]. destruct (cmp k (ekey e)); [reflexivity|]. apply IH. intros b Hb; apply H; right; exact Hb.
Qed.
Lemma freed_handed f (e : entry) : freed K V f e = handed f (ekey e, eval e). Proof. destruct f; reflexivity. Qed.
Lemma free_all_ok m f l : (forall a, In a l -> exists e, m a = Some e) ->
  free_all K V m f l = Some (flat_map (fun a => match m a with Some e => freed K V f e | None => [] end) l).
Proof.
  induction l as [| a r IH]; intros H; [reflexivity|]. cbn [free_all flat_map]. destruct (H a (or_introl eq_refl)) as (e & He). rewrite He. cbn [obind].
  rewrite IH by (intros b Hb; apply H; right; exact Hb). reflexivity.
Qed.
Lemma freed_rep m f l ps : rep m l ps -> flat_map (fun a => match m a with Some e => freed K V f e | None => [] end) l = flat_map (handed f) ps.
Proof. induction 1 as [| a p l ps (e & H1 & <- & H3) R IH]; [reflexivity|]. cbn [flat_map]. rewrite H1, IH, freed_handed. reflexivity. Qed.

(** * Iteration *)
Lemma inv_cur h ps c : Inv h ps -> Inv (with_cur K V h c) ps.
Proof. intros I. constructor; cbn [with_cur mem iter tbl len thr next nr expandable gen]; apply I. Qed.
Lemma two_splits (l1 l2 d t : list N) a b : l1 ++ b :: l2 = d ++ a :: t -> ~ In a l1 ->
  (l1 = d /\ b = a /\ l2 = t) \/ (exists d2, d = l1 ++ b :: d2 /\ l2 = d2 ++ a :: t).
Proof.
  revert d; induction l1 as [| x r IH]; intros [| y d] H Hn; cbn [app] in H.
  - injection H as -> ->. auto.
  - injection H as -> ->. right. exists d. auto.
  - injection H as -> _. destruct Hn. left; reflexivity.
  - injection H as -> H. destruct (IH d H) as [(-> & -> & ->) | (d2 & -> & ->)]; [intros X; apply Hn; right; exact X | auto | right; exists d2; auto].
Qed.
Lemma after_ok l1 a l2 : ~ In a l1 -> after (l1 ++ a :: l2) a = Some (hd_error l2).
Proof.
  induction l1 as [| b r IH]; intros H; cbn [app after].
  - rewrite N.eqb_refl. destruct l2; reflexivity.
  - destruct (N.eqb_spec b a) as [-> | Hn]; [destruct H; left; reflexivity|]. apply IH. intros X; apply H; right; exact X.
Qed.
Lemma iterate_ok todo : forall fuel h p dn before l, Inv h (before ++ l) -> iter h = dn ++ todo -> rep (mem h) dn before -> rep (mem h) todo l ->
  (length todo <= fuel)%nat -> plan_ok (expandable h) p -> N.of_nat (length (before ++ l)) < 2 ^ 32 ->
  exists h' res seen fr ok, iterate_loop K V hash cmp fuel h (hd_error todo) p = Some (h', seen, fr, ok) /\ visit cmp before l p = (res, seen, fr, ok) /\
    Inv h' res /\ cur h' = None /\ expandable h' = expandable h.
Proof.
  induction todo as [| a todo IH]; intros fuel h p dn before l I Ei R1 R2 Hf Pl Bd.
  - inversion R2; subst. rewrite app_nil_r in I. exists (with_cur K V h None), before, [], [], true. 
    split; [destruct fuel; reflexivity|]. split; [reflexivity|]. split; [apply inv_cur; exact I|]. auto.
  - inversion R2 as [| a' x todo' l' (e & Em & Ex & Er) R3 Q1 Q2]; subst a' todo' l. destruct fuel as [| f]; [cbn in Hf; lia|].
    cbn [hd_error iterate_loop]. cbn zeta. set (h1 := with_cur K V h (Some a)).
    change (mem h1 a) with (mem h a). rewrite Em. cbn [obind]. change (iter h1) with (iter h). rewrite Ei.
    pose proof (i_nodup _ _ I) as D. rewrite Ei in D. pose proof (NoDup_remove_2 _ _ _ D) as Da.
    rewrite after_ok by (intros X; apply Da, in_or_app; auto). cbn [obind]. rewrite Er.
    assert (I1 : Inv h1 (before ++ x :: l')) by (apply inv_cur; exact I).
    assert (Hx : x = (ekey e, eval e)) by auto. 
    cbn [visit].
    assert (Pt : plan_ok (expandable h) (tl p)) by (destruct p; [exact Pl | inversion Pl; auto]).
    assert (Hf' : (length todo <= f)%nat) by (cbn [length] in Hf; lia).
    destruct (match p with [] => (None, false) | y :: _ => y end) as [what stop] eqn:Ew.
    destruct what as [fl |].
    + (* the handler removes *)
      assert (Pw : stop = false /\ expandable h = false).
      { destruct p as [| y p']; [discriminate|]. subst y. inversion Pl as [| ? ? Hy]; subst. exact Hy. }
      destruct Pw as [-> Xf]. unfold remove.
      destruct (find_key_ok h1 _ (ekey e) I1) as (r & Fk & Fd). rewrite Fk. cbn [obind].
      assert (Mka : mk (mem h) (ekey e) a = true) by (unfold mk; rewrite Em; apply crefl).
      inversion Fd as [Hl | b eb l1 l2 p1 p2 c F1 F2 F3 F4 F5 F6 F7 F8 F9 F10 F11]; subst r.
      { rewrite lookup_app in Hl. subst x. cbn [lookup fst] in Hl. rewrite crefl in Hl. destruct (lookup cmp (ekey e) before); discriminate. }
      change (cur h1) with (Some a). cbn match. change (iter h1) with (iter h) in F1. change (mem h1) with (mem h) in *. rewrite Ei in F1. symmetry in F1.
      destruct (two_splits _ _ _ _ _ _ F1) as [(-> & -> & ->) | (d2 & -> & ->)].
      { intros X. pose proof (F11 a X). congruence. }
      * (* itself *)
        rewrite N.eqb_refl. cbn [obind]. rewrite Em in F3. injection F3 as <-. cbn [with_mem mem]. rewrite set_mem_eq. cbn [obind erem eflag emgr].
        assert (Lb : lookup cmp (ekey e) before = None) by (apply (lookup_rep (mem h) dn); auto).
        rewrite (i_mgr _ _ I Xf a e) by (auto; rewrite Ei; apply in_elt).
        destruct (inv_release h (with_mem K V h1 (set_mem K V (mem h) a (Some (mkE (ekey e) (eval e) (gen h, hash (len h) (ekey e)) true fl)))) (before ++ x :: l') a e
          (mkE (ekey e) (eval e) (gen h, hash (len h) (ekey e)) true fl) dn todo before l' fl) as (h2 & Rl & I2 & It2 & C2 & E2 & M2); auto.
        { rewrite Hx. reflexivity. }
        { intros b Hb. cbn [with_mem mem]. apply set_mem_ne; exact Hb. }
        change (mem h1) with (mem h). rewrite Rl. cbn [obind].
        destruct (IH f h2 (tl p) dn before l') as (h3 & res & seen & fr & ok & T1 & T2 & T3 & T4 & T5); auto.
        { apply (rep_ext (mem h)); auto. intros b Hb. apply M2. intros ->. apply Da, in_or_app; auto. }
        { apply (rep_ext (mem h)); auto. intros b Hb. apply M2. intros ->. apply Da, in_or_app; auto. }
        { rewrite E2; exact Pt. }
        { clear - Bd. rewrite app_length in *. cbn [length] in Bd. lia. }
        rewrite T1. cbn [obind]. exists h3, res, (x :: seen), (handed fl x ++ fr), ok.
        replace (fst x) with (ekey e) by (subst x; reflexivity).
        rewrite (lookup_mid (ekey e) before [] x), (remove1_mid (ekey e) before [] x) by (subst x; auto using crefl). rewrite app_nil_r, T2.
        split; [subst x; rewrite freed_handed; reflexivity|]. split; [reflexivity|]. split; [exact T3|]. split; [exact T4 | congruence].
      * (* an older one *)
        assert (Hab : a <> b).
        { intros ->. apply Da. apply in_or_app. left. apply in_elt. }
        destruct (N.eqb_spec a b) as [Y | _]; [contradiction|]. cbn [obind].
        destruct (rep_split _ _ _ b l1 d2 R1 eq_refl) as (q1 & eb' & q2 & B1 & B2 & B3 & B4 & B5). rewrite F3 in B2. injection B2 as <-.
        assert (Lb : lookup cmp (ekey e) q1 = None) by (apply (lookup_rep (mem h) l1); auto).
        rewrite (bucket_id h1 _ _ I1). change (gen h1) with (gen h). change (len h1) with (len h). rewrite (hash_equal _ _ _ Hh _ _ _ F7).
        destruct (inv_release h h1 (before ++ x :: l') b eb eb l1 (d2 ++ a :: todo) q1 (q2 ++ x :: l') fl) as (h2 & Rl & I2 & It2 & C2 & E2 & M2); auto.
        { rewrite Ei, <- app_assoc. reflexivity. }
        { rewrite B1, <- app_assoc. reflexivity. }
        { apply Forall2_app; auto. }
        rewrite Rl. cbn [obind]. rewrite M2 by exact Hab. rewrite Em. cbn [obind]. rewrite Er. cbn [obind].
        assert (Nb : ~ In b (l1 ++ d2 ++ a :: todo)) by (rewrite <- app_assoc in D; apply NoDup_remove_2 in D; exact D).
        destruct (IH f h2 (tl p) (l1 ++ d2 ++ [a]) (q1 ++ q2 ++ [x]) l') as (h3 & res & seen & fr & ok & T1 & T2 & T3 & T4 & T5); auto.
        { rewrite <- !app_assoc. exact I2. }
        { rewrite It2, <- !app_assoc. reflexivity. }
        { apply (rep_ext (mem h)); [|intros y Hy; apply M2; intros ->; apply Nb; rewrite !in_app_iff in *; cbn in *; tauto].
          apply Forall2_app; auto. apply Forall2_app; auto. constructor; [|constructor]. exists e; auto. }
        { apply (rep_ext (mem h)); auto. intros y Hy. apply M2. intros ->. apply Nb. rewrite !in_app_iff. cbn. tauto. }
        { rewrite E2; exact Pt. }
        { clear - Bd B1. subst before. rewrite !app_length in *. cbn [length] in *. lia. }
        rewrite T1. cbn [obind]. exists h3, res, (x :: seen), (handed fl (ekey eb, eval eb) ++ fr), ok.
        replace (fst x) with (ekey e) by (subst x; reflexivity). rewrite B1, <- app_assoc. cbn [app].
        rewrite (lookup_mid (ekey e) q1), (remove1_mid (ekey e) q1) by auto. rewrite T2.
        split; [rewrite freed_handed; subst x; reflexivity|]. split; [reflexivity|]. split; [exact T3|]. split; [exact T4 | congruence].
    + cbn [obind]. destruct stop.
      * exists (with_cur K V h1 None), ((before ++ [x]) ++ l'), [x], [], false. subst x. split; [reflexivity|]. split; [reflexivity|].
        split; [apply inv_cur; rewrite <- app_assoc; exact I1|]. auto.
      * change (mem h1 a) with (mem h a). rewrite Em. cbn [obind]. rewrite Er. cbn [obind].
        destruct (IH f h1 (tl p) (dn ++ [a]) (before ++ [x]) l') as (h3 & res & seen & fr & ok & T1 & T2 & T3 & T4 & T5); auto.
        { rewrite <- app_assoc. exact I1. }
        { rewrite <- app_assoc. exact Ei. }
        { apply Forall2_app; auto. constructor; [|constructor]. exists e; auto. }
        { rewrite <- app_assoc. exact Bd. }
        rewrite T1. cbn [obind]. exists h3, res, (x :: seen), fr, ok. rewrite T2. subst x. auto.
Qed.

(** * Steps *)
Lemma step_ok h ps o : Inv h ps -> cur h = None -> op_ok cmp (expandable h) ps o -> N.of_nat (length ps) + 1 < 2 ^ 32 ->
  exists h' out, step K V hash cmp prime h o = Some (h', out) /\ same_out out (snd (sstep cmp ps o)) /\ Inv h' (fst (sstep cmp ps o)) /\
    cur h' = None /\ expandable h' = expandable h.
Proof.
  intros I Hc Ok Bd. assert (Bd' : N.of_nat (length ps) < 2 ^ 32) by (clear - Bd; lia). destruct o as [k v t1 t2 t3 | k v t1 t2 t3 | k | k | k v | k | | k f | p | f]; cbn [step sstep].
  - unfold insert. destruct (resize_ok h ps t1 t2 I) as (h1 & R1 & R2 & R3 & R4 & R5 & R6 & R7). rewrite R1. cbn [obind].
    rewrite (bucket_id h1 ps k R2). destruct (add_ok h1 ps t3 k v R2 Bd) as (h2 & A1 & A2 & A3 & A4). rewrite A1. cbn [obind fst snd].
    exists h2, (OStatus K V t3). split; [reflexivity|]. destruct t3; cbn [fst snd]; (split; [constructor|]; split; [exact A2|]; split; congruence).
  - unfold update. destruct (find_key_ok h ps k I) as (r & Fk & Fd). rewrite Fk. cbn [obind]. rewrite (bucket_id h ps k I).
    inversion Fd as [Hl | a e l1 l2 p1 p2 c F1 F2 F3 F4 F5 F6 F7 F8 F9 F10 F11]; subst r.
    + rewrite Hl. destruct Ok as [Ex | Ex]; [|contradiction]. destruct (resize_ok h ps t1 t2 I) as (h1 & R1 & R2 & R3 & R4 & R5 & R6 & R7).
      rewrite (R7 Ex) in *. rewrite R1. cbn [obind]. destruct (add_ok h ps t3 k v I Bd) as (h2 & A1 & A2 & A3 & A4). rewrite A1. cbn [obind fst snd].
      eexists h2, _. split; [reflexivity|]. destruct t3; cbn [fst snd]; (split; [constructor|]; split; [exact A2|]; split; congruence).
    + subst ps. rewrite (lookup_mid k p1 p2), (replace_mid k p1 p2) by auto. cbn [fst snd obind].
      eexists _, _. split; [reflexivity|]. split; [constructor|]. split; [|cbn [with_mem cur expandable]; auto]. eapply inv_rewrite; eauto.
  - unfold search. destruct (find_key_ok h ps k I) as (r & Fk & Fd). rewrite Fk. cbn [obind fst snd]. eexists h, _. split; [reflexivity|].
    split; [|auto]. inversion Fd as [Hl | a e l1 l2 p1 p2 c F1 F2 F3 F4 F5 F6 F7 F8 F9 F10 F11]; subst r.
    + rewrite Hl. constructor.
    + rewrite F4. subst ps. rewrite (lookup_mid k p1 p2) by auto. constructor.
  - destruct (chain_ok h ps k I) as (c & C1 & C2). rewrite (search_all_ok h ps k c I C1 _ [] c eq_refl).
    + cbn [obind fst snd]. eexists h, _. split; [reflexivity|]. split; [|auto]. rewrite (i_filter _ _ I k c C2), (vals_rep (mem h) (iter h) ps k (i_rep _ _ I)). constructor.
    + intros a Ha. apply (bucket_defined h ps _ c a I C2 Ha).
    + apply Nat.lt_succ_r. apply (bucket_short h ps _ c I C2).
  - unfold change_value. destruct (find_key_ok h ps k I) as (r & Fk & Fd). rewrite Fk. cbn [obind].
    inversion Fd as [Hl | a e l1 l2 p1 p2 c F1 F2 F3 F4 F5 F6 F7 F8 F9 F10 F11]; subst r.
    + rewrite Hl. cbn [fst snd obind]. eexists h, _. split; [reflexivity|]. split; [constructor|]. auto.
    + subst ps. rewrite (lookup_mid k p1 p2) by auto. rewrite (replace_mid k p1 p2) by auto. cbn [fst snd obind].
      eexists _, _. split; [reflexivity|]. split; [constructor|]. split; [|cbn [with_mem cur expandable]; auto]. rewrite F4.
      eapply inv_rewrite; eauto. apply crefl.
  - unfold key_exist. destruct (chain_ok h ps k I) as (c & C1 & C2). rewrite C1. cbn [obind].
    rewrite exist_in_ok by (intros a Ha; apply (bucket_defined h ps _ c a I C2 Ha)). cbn [obind fst snd]. eexists h, _. split; [reflexivity|]. split; [|auto].
    rewrite (exists_rep (mem h) (iter h) ps k (i_rep _ _ I)), !existsb_filter, (i_filter _ _ I k c C2). constructor.
  - eexists h, _. split; [reflexivity|]. cbn [fst snd]. split; [|auto]. rewrite (i_nr _ _ I). constructor.
  - unfold remove. destruct (find_key_ok h ps k I) as (r & Fk & Fd). rewrite Fk. cbn [obind].
    inversion Fd as [Hl | a e l1 l2 p1 p2 c F1 F2 F3 F4 F5 F6 F7 F8 F9 F10 F11]; subst r.
    + rewrite Hl. cbn [fst snd obind]. eexists h, _. split; [reflexivity|]. split; [constructor|]. split; [|auto].
      replace (remove1 cmp k ps) with ps; [exact I|]. clear - Hl. induction ps as [| q r IH]; [reflexivity|]. cbn [lookup remove1] in *.
      destruct (cmp k (fst q)); [discriminate|]. f_equal. apply IH; exact Hl.
    + rewrite Hc. rewrite (bucket_id h ps k I), (hash_equal _ _ _ Hh _ _ _ F7).
      destruct (inv_release h h ps a e e l1 l2 p1 p2 f) as (h2 & Rl & I2 & It2 & C2 & E2 & M2); auto.
      rewrite Rl. cbn [obind fst snd]. eexists h2, _. split; [reflexivity|]. subst ps. rewrite (lookup_mid k p1 p2), (remove1_mid k p1 p2) by auto.
      rewrite freed_handed. split; [constructor|]. split; [exact I2|]. split; congruence.
  - unfold iterate. destruct (iterate_ok (iter h) (length (iter h)) h p [] [] ps) as (h' & res & seen & fr & ok & T1 & T2 & T3 & T4 & T5); auto.
    { apply (i_rep _ _ I). }
    rewrite T1, T2. cbn [obind fst snd]. eexists h', _. split; [reflexivity|]. split; [constructor|]. auto.
  - unfold reset. rewrite free_all_ok.
    + cbn [obind fst snd]. eexists _, _. split; [reflexivity|]. split.
      * constructor. rewrite <- (freed_rep (mem h) f (iter h) ps (i_rep _ _ I)). apply Permutation_flat_map. apply (concat_perm h ps I).
      * split; [|cbn [cur expandable]; auto]. constructor; cbn [mem iter tbl len thr next nr expandable gen].
        -- constructor.
        -- constructor.
        -- intros a [].
        -- rewrite map_length. apply (i_len _ _ I).
        -- intros i c a Hi Ha. rewrite nth_error_map in Hi. destruct (nth_error (tbl h) i); [|discriminate]. injection Hi as <-. destruct Ha.
        -- intros k c Hk. rewrite nth_error_map in Hk. destruct (nth_error (tbl h) _); [|discriminate]. injection Hk as <-. reflexivity.
        -- apply (i_thr _ _ I).
        -- reflexivity.
        -- intros _ a e [].
    + intros a Ha. apply (concat_in h ps a I) in Ha. destruct (rep_in _ _ _ _ (i_rep _ _ I) Ha) as (e & He & _). eauto.
Qed.

Lemma remove1_len k (l : pairs K V) : (length (remove1 cmp k l) <= length l)%nat.
Proof. induction l as [| p r IH]; [reflexivity|]. cbn [remove1]. destruct (cmp k (fst p)); cbn [length]; lia. Qed.
Lemma replace_len k x (l : pairs K V) : length (replace cmp k x l) = length l.
Proof. induction l as [| p r IH]; [reflexivity|]. cbn [replace]. destruct (cmp k (fst p)); cbn [length]; lia. Qed.
Lemma visit_len (l : pairs K V) : forall before p res seen fr ok, visit cmp before l p = (res, seen, fr, ok) -> (length res <= length before + length l)%nat.
Proof.
  induction l as [| x r IH]; intros before p res seen fr ok.
  - cbn [visit]. injection 1 as <- <- <- <-. lia.
  - cbn [visit]. destruct (match p with [] => (None, false) | y :: _ => y end) as [what stop].
    assert (G : forall b fr0, (length b <= length before + 1)%nat -> (if stop then (b ++ r, [x], fr0, false) else let '(res0, seen0, fr', ok0) := visit cmp b r (tl p) in (res0, x :: seen0, fr0 ++ fr', ok0)) = (res, seen, fr, ok) ->
      (length res <= length before + length (x :: r))%nat).
    { intros b fr0 Hb. destruct stop.
      - injection 1 as <- <- <- <-. rewrite app_length. cbn [length]. lia.
      - destruct (visit cmp b r (tl p)) as [[[res0 seen0] fr'] ok0] eqn:E. injection 1 as <- <- <- <-. apply IH in E. cbn [length]. lia. }
    destruct what as [f |]; apply G.
    + pose proof (remove1_len (fst x) (before ++ [x])) as L. rewrite app_length in L. cbn [length] in L. exact L.
    + rewrite app_length. cbn [length]. lia.
Qed.
Lemma sstep_len (l : pairs K V) o : (length (fst (sstep cmp l o)) <= length l + 1)%nat.
Proof.
  destruct o as [k v t1 t2 t3 | k v t1 t2 t3 | k | k | k v | k | | k f | p | f]; cbn [sstep fst]; try lia.
  - destruct t3; cbn [fst]; rewrite ?app_length; cbn [length]; lia.
  - destruct (lookup cmp k l); cbn [fst]; [rewrite replace_len; lia|]. destruct t3; cbn [fst]; rewrite ?app_length; cbn [length]; lia.
  - destruct (lookup cmp k l) as [[]|]; cbn [fst]; rewrite ?replace_len; lia.
  - pose proof (remove1_len k l). lia.
  - destruct (visit cmp [] l p) as [[[res seen] fr] ok] eqn:E. cbn [fst]. apply visit_len in E. cbn [length] in E. lia.
  - cbn [length]. lia.
Qed.
Lemma run_ok ops : forall h ps, Inv h ps -> cur h = None -> legal cmp (expandable h) ps ops -> N.of_nat (length ps) + N.of_nat (length ops) < 2 ^ 32 ->
  exists h' outs, run K V hash cmp prime h ops = Some (h', outs) /\ Forall2 same_out outs (snd (srun cmp ps ops)).
Proof.
  induction ops as [| o r IH]; intros h ps I Hc L Bd.
  - exists h, []. split; [reflexivity|constructor].
  - destruct L as [L1 L2]. cbn [run srun]. destruct (step_ok h ps o I Hc L1) as (h1 & out & S1 & S2 & S3 & S4 & S5).
    { clear - Bd. cbn [length] in Bd. lia. }
    rewrite S1. cbn [obind fst snd]. pose proof (sstep_len ps o) as Ln. destruct (sstep cmp ps o) as [l' x] eqn:Es. cbn [fst snd] in *.
    destruct (IH h1 l' S3 S4) as (h2 & outs & T1 & T2).
    { rewrite S5. exact L2. }
    { clear - Bd Ln. cbn [length] in Bd. lia. }
    rewrite T1. cbn [obind fst snd]. exists h2, (out :: outs). split; [reflexivity|]. destruct (srun cmp l' r) as [l'' y]. cbn [snd] in *. constructor; auto.
Qed.
Lemma init_ok base ex cp t h : base < 2 ^ 32 -> hash_init K V prime base ex cp t = Some h -> Inv h [] /\ cur h = None /\ expandable h = ex.
Proof.
  intros Hb. unfold hash_init. set (l := if cp then prime (u32 base) else base). destruct (negb t); [discriminate|]. cbn [orb].
  destruct (N.eqb_spec l 0) as [Z | Z]; [discriminate|]. injection 1 as <-. split; [|auto].
  assert (Hl : 0 < l < 2 ^ 32) by (unfold l in *; destruct cp; [apply Hp | clear - Z Hb; lia]).
  constructor; cbn [mem iter tbl len thr next nr expandable gen].
  - constructor.
  - constructor.
  - intros a [].
  - rewrite repeat_length. auto.
  - intros i c a Hi Ha. apply nth_error_In, repeat_spec in Hi. subst c. destruct Ha.
  - intros k c Hk. apply nth_error_In, repeat_spec in Hk. subst c. reflexivity.
  - apply u32_lt.
  - reflexivity.
  - intros _ a e [].
Qed.
Lemma hash_ok base ex cp h ops : base < 2 ^ 32 -> hash_init K V prime base ex cp true = Some h -> legal cmp ex [] ops -> N.of_nat (length ops) < 2 ^ 32 ->
  exists h' outs, run K V hash cmp prime h ops = Some (h', outs) /\ Forall2 same_out outs (snd (srun cmp [] ops)).
Proof.
  intros Hb Hi Hl Hn. destruct (init_ok _ _ _ _ _ Hb Hi) as (I & C & X). subst ex. apply run_ok; auto.
Qed.
End Proofs.

(** Searching, placing a new node, the node after a node; height of balanced trees. *)
Require Import List Arith NArith ZArith Bool Lia Sorting.Sorted.
Require Import ZifyBool ZifyNat ZifyN.
Require Import Verif.Base Verif.ChainModel Verif.RbModel Verif.RbSpec Verif.RbLinkProofs Verif.RbInsertProofs Verif.RbDeleteProofs Verif.RbUnlinkProofs.
Import ListNotations.
Open Scope N_scope.

(** ** The next node *)
Lemma climb_ok m : forall k t n q fuel, good m k t n q -> n <> 0 -> (length k + 1 <= fuel)%nat ->
  climb fuel m n q = Some (hd 0 (after k)).
Proof.
  induction k as [|[d c a s] k IH]; intros t n q fuel G Zn Hf; (destruct fuel as [|fuel]; [cbn [length] in Hf; lia|]); cbn [climb].
  - destruct G as ((_ & ->) & _). reflexivity.
  - pose proof G as (R & Hn & U & N0). cbn [repc fa fc fl fs] in R. destruct R as (-> & Za & _ & R & Rk).
    rewrite (proj2 (N.eqb_neq _ _) Za). cbn [negb andb]. destruct d; destruct R as [<- R].
    + assert (X : lft m a <> rgt m a).
      { intros X. rewrite <- X in R. pose proof (rep_root _ _ _ _ R Zn). pose proof (rep_root _ _ _ _ Hn Zn). uq U (lft m a). lia. }
      rewrite (proj2 (N.eqb_neq _ _) X). reflexivity.
    + rewrite N.eqb_refl. cbn [after fl app]. cbn [length] in Hf.
      assert (Pn : par m (rgt m a) = a). { destruct t as [|ct lt b rt]; cbn [rep] in Hn; [congruence|]. destruct Hn as (-> & _ & Hn & _). exact Hn. }
      destruct (good_up _ _ _ _ _ _ G (or_introl Pn)) as [_ G']. apply (IH _ _ _ _ G' Za). lia.
Qed.

Fixpoint next_id (a : N) (l : list N) : N := match l with [] => 0 | b :: t => if b =? a then hd 0 t else next_id a t end.
Lemma next_id_app a l1 l2 : ~ In a l1 -> next_id a (l1 ++ a :: l2) = hd 0 l2.
Proof.
  induction l1 as [|b l1 IH]; intros H; cbn [app next_id]; [rewrite N.eqb_refl; reflexivity|].
  rewrite (proj2 (N.eqb_neq _ _)) by (intros ->; apply H; left; reflexivity). apply IH. intros X. apply H. right. exact X.
Qed.
Lemma successor_ok m t h n f : whole m t -> rbt false h t -> In n (inorder t) -> (length (inorder t) + 1 <= f)%nat ->
  successor f m n = Some (next_id n (inorder t)).
Proof.
  intros W B Hn Hf. destruct (whole_nodup _ _ W) as [Nd Nz].
  destruct (focus_ok m n t [] (root m) 0 false h false W B (rbc_root h) eq_refl ltac:(reflexivity) Hn) as (k & c & l & r & pc & h' & [G B' K Hc Hk I]).
  cbn [plug] in I. assert (Zn : n <> 0) by (intros ->; contradiction).
  pose proof I as I2. rewrite inorder_plug in I2. cbn [inorder] in I2.
  replace (before k ++ (inorder l ++ n :: inorder r) ++ after k) with ((before k ++ inorder l) ++ n :: inorder r ++ after k) in I2 by reassoc.
  assert (Nn : ~ In n (before k ++ inorder l)).
  { rewrite <- I2 in Nd. apply NoDup_remove_2 in Nd. intros X. apply Nd. apply in_app_iff. left. exact X. }
  rewrite <- I2, (next_id_app _ _ _ Nn). unfold successor. rewrite (proj2 (N.eqb_neq _ _) Zn). cbn [negb andb].
  assert (Lk : (length k + 1 <= f)%nat) by (pose proof (plug_size k (T c l n r)) as X; rewrite I in X; lia).
  destruct r as [|cr rl ra rr].
  - assert (Z : rgt m n = 0) by (destruct G as (_ & G & _); cbn [rep] in G; tauto). rewrite Z. cbn [N.eqb negb inorder app].
    eapply climb_ok; eauto.
  - assert (Z : rgt m n <> 0) by (destruct G as (_ & G & _); cbn [rep] in G; destruct G as (_ & _ & _ & _ & _ & -> & G & _); exact G).
    rewrite (proj2 (N.eqb_neq _ _) Z). cbn [negb].
    destruct (rbc_down _ _ _ _ _ _ _ K B' Hc Hk) as (h2 & cl & cr2 & Bl & Br & Xl & Xr & Kd).
    destruct (minimum_ok m _ (F false c n l :: k) (rgt m n) n cr2 h2 c f (good_down_r _ _ _ _ _ _ _ _ G) ltac:(discriminate) Br (Kd false l (or_introl Bl))
      ltac:(rewrite andb_comm; exact Xr) ltac:(discriminate)) as (ky & cy & y & ry & pcy & hy & M & _ & _ & _ & _ & Ey & Fy & _).
    { rewrite <- I2 in Hf. rewrite !app_length in Hf. cbn [length] in Hf. rewrite app_length in Hf. lia. }
    rewrite M, Ey, inorder_plug, Fy. reflexivity.
Qed.

(** ** Keys *)
Section Keys.
Variable K : Type.
Variable cmp : K -> K -> Z.
Hypothesis Hcmp : preorder cmp.
Variable key : N -> K.

Definition le_key (a b : N) : Prop := (cmp (key a) (key b) <= 0)%Z.
Definition keyed (l : list N) : Prop := StronglySorted le_key l.

Lemma cmp_flip a b : (cmp a b <= 0 <-> 0 <= cmp b a)%Z.
Proof. destruct Hcmp as [H _]. pose proof (H a b). pose proof (H b a). lia. Qed.
Lemma cmp_lt_le a b c : (cmp a b < 0 -> cmp b c <= 0 -> cmp a c < 0)%Z.
Proof.
  intros H1 H2. destruct Hcmp as [F T]. destruct (Z.lt_ge_cases (cmp a c) 0) as [X|X]; [exact X|].
  apply cmp_flip in X. pose proof (T _ _ _ H2 X) as Y. apply cmp_flip in Y. lia.
Qed.
Lemma cmp_le_lt a b c : (cmp a b <= 0 -> cmp b c < 0 -> cmp a c < 0)%Z.
Proof.
  intros H1 H2. destruct Hcmp as [F T]. destruct (Z.lt_ge_cases (cmp a c) 0) as [X|X]; [exact X|].
  apply cmp_flip in X. pose proof (T _ _ _ X H1) as Y. apply cmp_flip in Y. lia.
Qed.

Lemma keyed_app l1 l2 : keyed (l1 ++ l2) <-> keyed l1 /\ keyed l2 /\ forall a b, In a l1 -> In b l2 -> le_key a b.
Proof.
  unfold keyed. induction l1 as [|x l1 IH]; cbn [app].
  - split; [intros H; split; [constructor|split; [exact H|intros a b []]]|tauto].
  - split.
    + intros H. apply StronglySorted_inv in H. destruct H as [H1 H2]. apply IH in H1. destruct H1 as (H1 & H3 & H4).
      rewrite Forall_forall in H2. split; [constructor; [exact H1|]|split; [exact H3|]].
      * apply Forall_forall. intros y Hy. apply H2. apply in_app_iff. auto.
      * intros a b [<-|Ha] Hb; [apply H2; apply in_app_iff; auto|auto].
    + intros (H1 & H2 & H3). apply StronglySorted_inv in H1. destruct H1 as [H1 H4]. constructor.
      * apply IH. split; [exact H1|]. split; [exact H2|]. intros a b Ha Hb. apply H3; [right; exact Ha|exact Hb].
      * rewrite Forall_forall in *. intros y Hy. apply in_app_iff in Hy. destruct Hy as [Hy|Hy]; [auto|]. apply H3; [left; reflexivity|exact Hy].
Qed.
Lemma keyed_cons x l : keyed (x :: l) <-> keyed l /\ forall b, In b l -> le_key x b.
Proof.
  unfold keyed. split.
  - intros H. apply StronglySorted_inv in H. destruct H as [H1 H2]. rewrite Forall_forall in H2. auto.
  - intros [H1 H2]. constructor; [exact H1|]. apply Forall_forall. exact H2.
Qed.
Lemma keyed_node l a r : keyed (l ++ a :: r) -> keyed l /\ keyed r /\ (forall b, In b l -> le_key b a) /\ (forall b, In b r -> le_key a b).
Proof.
  intros H. apply keyed_app in H. destruct H as (H1 & H2 & H3). apply keyed_cons in H2. destruct H2 as [H2 H4].
  split; [exact H1|]. split; [exact H2|]. split; [|exact H4]. intros b Hb. apply H3; [exact Hb|left; reflexivity].
Qed.

(** Searching meets a node with an equal key iff there is one; it needs no more turns than the tree is high. *)
Lemma search_ok m d : forall t q x fuel, rep m q x t -> keyed (inorder t) -> (height t < fuel)%nat ->
  (exists a, search cmp fuel m key d x = Some a /\ In a (inorder t) /\ cmp d (key a) = 0%Z) \/
  (search cmp fuel m key d x = Some 0 /\ forall a, In a (inorder t) -> cmp d (key a) <> 0%Z).
Proof.
  induction t as [|c l IHl a r IHr]; intros q x fuel H S Hf; (destruct fuel as [|fuel]; [lia|]); cbn [search rep inorder height] in *.
  - subst x. right. split; [reflexivity|]. intros a [].
  - destruct H as (-> & Za & _ & _ & Hl & Hr). rewrite (proj2 (N.eqb_neq _ _) Za). cbv zeta.
    destruct (keyed_node _ _ _ S) as (Sl & Sr & Ll & Lr).
    destruct (Z.eqb_spec (cmp d (key a)) 0) as [Z0|Z0].
    { left. exists a. split; [reflexivity|]. split; [apply in_app_iff; right; left; reflexivity|exact Z0]. }
    destruct (Z.ltb_spec (cmp d (key a)) 0) as [Zl|Zl].
    + destruct (IHl _ _ fuel Hl Sl ltac:(lia)) as [(b & E1 & I1 & C1)|[E1 C1]].
      * left. exists b. split; [exact E1|]. split; [apply in_app_iff; auto|exact C1].
      * right. split; [exact E1|]. intros b Hb. apply in_app_iff in Hb. destruct Hb as [Hb|[<-|Hb]]; [auto|lia|].
        pose proof (cmp_lt_le _ _ _ Zl (Lr b Hb)). lia.
    + destruct (IHr _ _ fuel Hr Sr ltac:(lia)) as [(b & E1 & I1 & C1)|[E1 C1]].
      * left. exists b. split; [exact E1|]. split; [apply in_app_iff; right; right; exact I1|exact C1].
      * right. split; [exact E1|]. intros b Hb. apply in_app_iff in Hb. destruct Hb as [Hb|[<-|Hb]]; [|lia|auto].
        assert (X : (cmp (key a) d < 0)%Z) by (destruct Hcmp as [F _]; apply F; lia).
        pose proof (cmp_le_lt _ _ _ (Ll b Hb) X) as Y. destruct Hcmp as [F _]. apply F in Y. lia.
Qed.

(** Where a new key goes. *)
Lemma descend_ok m d : forall t k x q c h pc fuel, good m k t x q -> rbt c h t -> rbc k pc h -> c && pc = false -> (k = [] -> c = false) ->
  keyed (inorder t) -> (length (inorder t) + 1 <= fuel)%nat ->
  exists k' y pc' l1 l2, descend cmp fuel m key d x q = Some y /\ good m k' E 0 y /\ rbc k' pc' 0 /\
    before k' = before k ++ l1 /\ after k' = l2 ++ after k /\ inorder t = l1 ++ l2 /\
    (forall b, In b l1 -> (0 <= cmp d (key b))%Z) /\ (forall b, In b l2 -> (cmp d (key b) < 0)%Z).
Proof.
  induction t as [|c0 l IHl a r IHr]; intros k x q c h pc fuel G B Kc Hc Hk S Hf; (destruct fuel as [|fuel]; [lia|]); cbn [descend].
  - assert (x = 0) by (destruct G as (_ & G & _); exact G). subst x. cbn [N.eqb]. exists k, q, pc, [], [].
    inversion B; subst. rewrite app_nil_r. split; [reflexivity|]. split; [exact G|]. split; [exact Kc|]. repeat (split; [reflexivity|]).
    split; intros b [].
  - assert (c0 = c) by (rewrite <- (rbt_rootc _ _ _ B); reflexivity). subst c0.
    destruct (good_parent _ _ _ _ _ _ _ _ G) as (-> & _ & _ & Za). rewrite (proj2 (N.eqb_neq _ _) Za).
    destruct (rbc_down _ _ _ _ _ _ _ Kc B Hc Hk) as (h' & cl & cr & Bl & Br & Xl & Xr & Kd).
    cbn [inorder] in *. rewrite app_length in Hf. cbn [length] in Hf. destruct (keyed_node _ _ _ S) as (Sl & Sr & Ll & Lr).
    destruct (Z.ltb_spec (cmp d (key a)) 0) as [Zl|Zl].
    + destruct (IHl (F true c a r :: k) (lft m a) a cl h' c fuel (good_down_l _ _ _ _ _ _ _ _ G) Bl (Kd true r (or_intror Br))
        ltac:(rewrite andb_comm; exact Xl) ltac:(discriminate) Sl ltac:(lia)) as (k' & y & pc' & l1 & l2 & E1 & G1 & K1 & Bf & Af & I1 & C1 & C2).
      exists k', y, pc', l1, (l2 ++ a :: inorder r). split; [exact E1|]. split; [exact G1|]. split; [exact K1|].
      split; [rewrite Bf; cbn [before fl]; rewrite app_nil_r; reflexivity|]. split; [rewrite Af; cbn [after fl fa fs]; reassoc|].
      split; [rewrite I1; reassoc|]. split; [exact C1|].
      intros b Hb. apply in_app_iff in Hb. destruct Hb as [Hb|[<-|Hb]]; [auto|exact Zl|]. eapply cmp_lt_le; [exact Zl|apply Lr, Hb].
    + destruct (IHr (F false c a l :: k) (rgt m a) a cr h' c fuel (good_down_r _ _ _ _ _ _ _ _ G) Br (Kd false l (or_introl Bl))
        ltac:(rewrite andb_comm; exact Xr) ltac:(discriminate) Sr ltac:(lia)) as (k' & y & pc' & l1 & l2 & E1 & G1 & K1 & Bf & Af & I1 & C1 & C2).
      exists k', y, pc', (inorder l ++ a :: l1), l2. split; [exact E1|]. split; [exact G1|]. split; [exact K1|].
      split; [rewrite Bf; cbn [before fl fa fs]; reassoc|]. split; [rewrite Af; reflexivity|].
      split; [rewrite I1; reassoc|]. split; [|exact C2].
      intros b Hb. apply in_app_iff in Hb. destruct Hb as [Hb|[<-|Hb]]; [|exact Zl|auto].
      apply cmp_flip in Zl. apply cmp_flip. destruct Hcmp as [_ Tr]. eapply Tr; [apply Ll, Hb|exact Zl].
Qed.

Lemma attach_ok m k n y : good m k E 0 y -> n <> 0 -> cntc n k = 0%nat ->
  match k with [] => True | f :: _ => fl f = (cmp (key n) (key (fa f)) <? 0)%Z end ->
  good (attach cmp m key n y) k (T true E n E) n y.
Proof.
  intros (R & _ & U & N0) Zn Kn Hd. unfold attach. cbv zeta. set (m1 := set_par m n y).
  assert (R1 : repc (if y =? 0 then set_root m1 n else if (cmp (key n) (key y) <? 0)%Z then set_lft m1 y n else set_rgt m1 y n) n y k).
  { destruct k as [|f k]; cbn [repc] in R.
    - destruct R as [_ ->]. split; reflexivity.
    - destruct R as (-> & Zf & Cf & R & Rk). rewrite (proj2 (N.eqb_neq _ _) Zf). rewrite <- Hd.
      assert (R0 : repc m 0 (fa f) (f :: k)) by (cbn [repc]; auto). cbn [cntc] in Kn.
      eapply repc_agree; [| | | |exact R0].
      + intros x Hx. cbn [cntc] in Hx. assert (x <> n) by (intros ->; lia).
        destruct (fl f); cbn [red par set_lft set_rgt m1 set_par]; rewrite set_neq by auto; auto.
      + intros x. specialize (U x). lia.
      + intros x Hx Hq. destruct (fl f); cbn [lft rgt set_lft set_rgt m1 set_par]; rewrite set_neq by auto; auto.
      + destruct (fl f); cbn [root lft rgt set_lft set_rgt m1 set_par]; rewrite set_eq; auto. }
  set (m2 := if y =? 0 then set_root m1 n else if (cmp (key n) (key y) <? 0)%Z then set_lft m1 y n else set_rgt m1 y n) in *.
  assert (P2 : par m2 n = y) by (unfold m2; destruct (y =? 0), (cmp (key n) (key y) <? 0)%Z; cbn [par set_root set_lft set_rgt m1 set_par]; apply set_eq).
  assert (C2 : red m2 = red m) by (unfold m2; destruct (y =? 0), (cmp (key n) (key y) <? 0)%Z; reflexivity).
  clearbody m2. split; [|split; [|split]].
  - eapply repc_agree; [| | | |exact R1].
    + intros x Hx. cbn [red par set_red set_lft set_rgt]. rewrite set_neq by (intros ->; lia). auto.
    + intros x. specialize (U x). lia.
    + intros x Hx Hq. cbn [lft rgt set_red set_lft set_rgt]. rewrite !set_neq by (intros ->; lia). auto.
    + destruct k as [|f k]; cbn [repc] in R1; cbn [root lft rgt set_red set_lft set_rgt]; [tauto|].
      cbn [cntc] in Kn. assert (fa f <> n) by (intros X; rewrite X, ind_refl in Kn; lia). rewrite !set_neq by auto.
      destruct R1 as (_ & _ & _ & R1 & _). destruct (fl f); destruct R1 as [-> _]; auto.
  - cbn [rep par lft rgt red set_red set_lft set_rgt]. rewrite !set_eq. auto 8.
  - intros x. specialize (U x). cbn [cnt] in *. unfold ind. destruct (N.eqb_spec n x); [subst x|]; lia.
  - cbn [red set_red set_lft set_rgt]. rewrite C2. rewrite set_neq by auto. exact N0.
Qed.
End Keys.

(** ** Height *)
Lemma rbt_size c h t : rbt c h t -> (2 ^ h <= length (inorder t) + 1)%nat.
Proof.
  induction 1; cbn [inorder]; rewrite ?app_length; cbn [length Nat.pow].
  - lia.
  - lia.
  - pose proof (Nat.pow_nonzero 2 h). lia.
Qed.
Lemma rbt_height c h t : rbt c h t -> (height t <= 2 * h + (if c then 1 else 0))%nat.
Proof. induction 1; cbn [height]; [lia| |lia]. destruct c1, c2; lia. Qed.
Lemma balanced_height h t : rbt false h t -> (height t <= 2 * Nat.log2 (length (inorder t) + 1))%nat.
Proof.
  intros H. pose proof (rbt_height _ _ _ H) as A. pose proof (rbt_size _ _ _ H) as S. cbn in A.
  assert (h <= Nat.log2 (length (inorder t) + 1))%nat; [|lia]. apply Nat.log2_le_pow2; lia.
Qed.
Lemma height_size t : (height t <= length (inorder t))%nat.
Proof. induction t as [|c l IHl a r IHr]; cbn [height inorder]; [lia|]. rewrite app_length. cbn [length]. lia. Qed.

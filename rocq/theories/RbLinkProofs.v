(** The linked nodes of the red-black tree as an inductive tree seen from a position. *)
Require Import List Arith NArith ZArith Bool Lia.
Require Import ZifyBool ZifyNat ZifyN.
Require Import Verif.Base Verif.ChainModel Verif.RbModel Verif.RbSpec.
Import ListNotations.
Open Scope N_scope.

(** One step of the path to the root: is the hole the left child; colour and address of the node; its other subtree. *)
Record frame := F { fl : bool; fc : bool; fa : N; fs : tree }.
Definition ctx := list frame.

Definition ind (a x : N) : nat := if a =? x then 1 else 0.
Fixpoint cnt (x : N) (t : tree) : nat := match t with E => 0 | T _ l a r => ind a x + cnt x l + cnt x r end.
Fixpoint cntc (x : N) (k : ctx) : nat := match k with [] => 0 | f :: k => ind (fa f) x + cnt x (fs f) + cntc x k end.
Definition uniq (k : ctx) (t : tree) : Prop := forall x, (cntc x k + cnt x t <= 1)%nat.

Fixpoint repc (m : links) (p q : N) (k : ctx) : Prop :=
  match k with
  | [] => root m = p /\ q = 0
  | f :: k => q = fa f /\ fa f <> 0 /\ red m (fa f) = fc f /\
      (if fl f then lft m (fa f) = p /\ rep m (fa f) (rgt m (fa f)) (fs f)
       else rgt m (fa f) = p /\ rep m (fa f) (lft m (fa f)) (fs f)) /\
      repc m (fa f) (par m (fa f)) k
  end.

Lemma ind_refl a : ind a a = 1%nat.
Proof. unfold ind. rewrite N.eqb_refl. reflexivity. Qed.
Lemma ind_neq a b : a <> b -> ind a b = 0%nat.
Proof. unfold ind. intros H. destruct (N.eqb_spec a b); congruence. Qed.

Lemma rep_0 m q p t : rep m q p t -> cnt 0 t = 0%nat.
Proof.
  revert q p. induction t as [|c l IHl a r IHr]; intros q p H; [reflexivity|]. cbn [rep cnt] in *.
  destruct H as (_ & H & _ & _ & Hl & Hr). rewrite (IHl _ _ Hl), (IHr _ _ Hr), ind_neq by auto. reflexivity.
Qed.
Lemma repc_0 m p q k : repc m p q k -> cntc 0 k = 0%nat.
Proof.
  revert p q. induction k as [|f k IH]; intros p q H; [reflexivity|]. cbn [repc cntc] in *.
  destruct H as (_ & H & _ & Hs & Hk). rewrite (IH _ _ Hk), ind_neq by auto.
  destruct (fl f); destruct Hs as [_ Hs]; rewrite (rep_0 _ _ _ _ Hs); reflexivity.
Qed.
Lemma rep_root m q p t : rep m q p t -> p <> 0 -> (0 < cnt p t)%nat.
Proof. destruct t; cbn [rep cnt]; intros H Hp; [contradiction|]. destruct H as (-> & _). rewrite ind_refl. lia. Qed.

(** Agreement on the nodes of a tree. *)
Definition same (m m' : links) (x : N) : Prop := lft m' x = lft m x /\ rgt m' x = rgt m x /\ red m' x = red m x.
Lemma rep_agree m m' : forall t q p, (forall x, (0 < cnt x t)%nat -> same m m' x /\ par m' x = par m x) -> rep m q p t -> rep m' q p t.
Proof.
  induction t as [|c l IHl a r IHr]; intros q p H; cbn [rep cnt] in *; [auto|]. intros (-> & H0 & H1 & H2 & Hl & Hr).
  destruct (H a) as ((S1 & S2 & S3) & S4); [rewrite ind_refl; lia|]. rewrite S1, S2, S3, S4.
  split; [reflexivity|]. split; [auto|]. split; [auto|]. split; [auto|].
  split; [apply IHl|apply IHr]; auto; intros x Hx; apply H; lia.
Qed.
Lemma rep_reparent m m' t q q' p : (forall x, (0 < cnt x t)%nat -> same m m' x /\ (x <> p -> par m' x = par m x)) ->
  (forall x, (cnt x t <= 1)%nat) -> (p <> 0 -> par m' p = q') -> rep m q p t -> rep m' q' p t.
Proof.
  destruct t as [|c l a r]; cbn [rep cnt]; [auto|]. intros H U Hp (-> & H0 & H1 & H2 & Hl & Hr).
  pose proof (U a) as Ua. rewrite ind_refl in Ua.
  destruct (H a) as ((S1 & S2 & S3) & S4); [rewrite ind_refl; lia|]. rewrite S1, S2, S3.
  split; [reflexivity|]. split; [auto|]. split; [auto|]. split; [auto|].
  split; (eapply rep_agree; [|eassumption]); intros x Hx; (destruct (H x) as (S & S5); [lia|]);
    (split; [exact S|apply S5; intros ->; lia]).
Qed.
Lemma repc_agree m m' : forall k p p' q, (forall x, (0 < cntc x k)%nat -> red m' x = red m x /\ par m' x = par m x) ->
  (forall x, (cntc x k <= 1)%nat) ->
  (forall x, (0 < cntc x k)%nat -> x <> q -> lft m' x = lft m x /\ rgt m' x = rgt m x) ->
  match k with
  | [] => root m' = p'
  | f :: _ => root m' = root m /\ lft m' (fa f) = (if fl f then p' else lft m (fa f)) /\
              rgt m' (fa f) = (if fl f then rgt m (fa f) else p')
  end -> repc m p q k -> repc m' p' q k.
Proof.
  induction k as [|f k IH]; intros p p' q H U Hq Hf; cbn [repc cntc] in *.
  { intros [_ Hr]; auto. }
  intros (Eq & H0 & H1 & Hs & Hk). subst q. destruct Hf as (Hro & Hl & Hr).
  destruct (H (fa f)) as [S1 S2]; [rewrite ind_refl; lia|].
  pose proof (U (fa f)) as Uf. rewrite ind_refl in Uf.
  assert (A : forall x, (0 < cnt x (fs f))%nat -> same m m' x /\ par m' x = par m x).
  { intros x Hx. destruct (H x) as [S3 S4]; [lia|]. destruct (Hq x) as [S5 S6]; [lia|intros ->; lia|]. repeat split; auto. }
  split; [reflexivity|]. split; [auto|]. split; [congruence|]. split.
  - rewrite Hl, Hr. destruct (fl f); destruct Hs as [Hs1 Hs2]; (split; [auto|]); eapply rep_agree; eauto.
  - rewrite S2. eapply IH; [| | | |exact Hk].
    + intros x Hx. apply H. lia.
    + intros x. specialize (U x). lia.
    + intros x Hx Hx2. apply Hq; [lia|]. intros ->. lia.
    + destruct k as [|g k]; [cbn [repc] in Hk; destruct Hk; congruence|]. cbn [cntc repc] in *.
      destruct (Hq (fa g)) as [S5 S6]; [rewrite ind_refl; lia|intros X; rewrite X, ind_refl in Uf; lia|].
      rewrite S5, S6. destruct Hk as (_ & _ & _ & Hk & _). destruct (fl g); destruct Hk as [<- _]; auto.
Qed.

(** Conclude from uniqueness that two addresses differ, or that an address is not in a subtree. *)
Ltac uq U x := let H := fresh "Ux" in pose proof (U x) as H; cbn [cnt cntc fa fs] in H; rewrite ?ind_refl in H.
Ltac bad U := exfalso; match goal with x : N |- _ => let H := fresh "Ux" in
  pose proof (U x) as H; cbn [cnt cntc fa fs] in H; rewrite ?ind_refl in H; solve [lia] end.
Ltac setd := cbn [par lft rgt red root set_par set_lft set_rgt set_red set_root]; unfold set; repeat match goal with
  |- context [?a =? ?b] => destruct (N.eqb_spec a b); [subst|] end.

Definition good (m : links) (k : ctx) (t : tree) (p q : N) : Prop :=
  repc m p q k /\ rep m q p t /\ uniq k t /\ red m 0 = false.

Lemma set_eq {V} (f : N -> V) a v : set f a v a = v.
Proof. unfold set. rewrite N.eqb_refl. reflexivity. Qed.
Lemma set_neq {V} (f : N -> V) a b v : b <> a -> set f a v b = f b.
Proof. unfold set. destruct (N.eqb_spec b a); congruence. Qed.

Lemma uniq_sub k t : uniq k t -> forall x, (cnt x t <= 1)%nat /\ (cntc x k <= 1)%nat.
Proof. intros U x. specialize (U x). lia. Qed.

(** Redirecting the pointer to the hole. *)
Definition point (m : links) (q u v : N) : links :=
  if q =? 0 then set_root m v else if u =? lft m q then set_lft m q v else set_rgt m q v.
Lemma point_par m q u v x : par (point m q u v) x = par m x.
Proof. unfold point. destruct (q =? 0), (u =? lft m q); reflexivity. Qed.
Lemma point_red m q u v x : red (point m q u v) x = red m x.
Proof. unfold point. destruct (q =? 0), (u =? lft m q); reflexivity. Qed.
Lemma point_lft m q u v x : x <> q -> lft (point m q u v) x = lft m x.
Proof. unfold point. intros H. destruct (q =? 0), (u =? lft m q); cbn [lft set_root set_lft set_rgt]; auto using set_neq. Qed.
Lemma point_rgt m q u v x : x <> q -> rgt (point m q u v) x = rgt m x.
Proof. unfold point. intros H. destruct (q =? 0), (u =? lft m q); cbn [rgt set_root set_lft set_rgt]; auto using set_neq. Qed.
(** [u] is the child on the hole's side only. *)
Definition sided (u : N) (k : ctx) (m : links) : Prop :=
  match k with [] => True | f :: _ => fl f = false -> u <> lft m (fa f) end.
Lemma point_ok m k u q v : repc m u q k -> (forall x, (cntc x k <= 1)%nat) -> sided u k m -> repc (point m q u v) v q k.
Proof.
  intros R U Hs. eapply repc_agree; [| | | |exact R]; auto.
  - intros x _. rewrite point_par, point_red. auto.
  - intros x _ Hx. rewrite point_lft, point_rgt by auto. auto.
  - unfold point. destruct k as [|f k]; cbn [repc] in R.
    + destruct R as [_ ->]. reflexivity.
    + destruct R as (-> & H0 & _ & Hk & _). rewrite (proj2 (N.eqb_neq _ _) H0). cbn [sided] in Hs.
      destruct (fl f); destruct Hk as [<- _].
      * rewrite N.eqb_refl. cbn [root lft rgt set_lft]. rewrite set_eq. auto.
      * rewrite (proj2 (N.eqb_neq _ _) (Hs eq_refl)). cbn [root lft rgt set_rgt]. rewrite set_eq. auto.
Qed.
(** The hole's content is not the sibling. *)
Lemma sided_tree m k t u q : repc m u q k -> rep m q u t -> uniq k t -> u <> 0 -> sided u k m.
Proof.
  intros R H U Hu. destruct k as [|f k]; cbn [sided]; [auto|]. intros Hf X. cbn [repc] in R. rewrite Hf in R.
  destruct R as (-> & H0 & _ & [_ Hk] & _). pose proof (rep_root _ _ _ _ H Hu). rewrite <- X in Hk. pose proof (rep_root _ _ _ _ Hk Hu).
  specialize (U u). cbn [cntc] in U. lia.
Qed.

(** ** Rotation *)
Lemma left_rotate_def m n : rgt m n <> 0 -> left_rotate m n =
  let tmp := rgt m n in
  let m := set_rgt m n (lft m tmp) in
  let m := if negb (lft m tmp =? 0) then set_par m (lft m tmp) n else m in
  let m := set_par m tmp (par m n) in
  set_par (set_lft (point m (par m n) n tmp) tmp n) n tmp.
Proof. intros H. unfold left_rotate, point. rewrite (proj2 (N.eqb_neq _ _) H). reflexivity. Qed.

Lemma left_rotate_ok m k q n cn a cw b w d : good m k (T cn a n (T cw b w d)) n q ->
  good (left_rotate m n) k (T cw (T cn a n b) w d) w q /\ red (left_rotate m n) = red m /\ par (left_rotate m n) 0 = par m 0.
Proof.
  intros (R & H & U & N0). assert (S := sided_tree _ _ _ _ _ R H U). cbn [rep] in H.
  destruct H as (_ & Hn0 & Pn & Cn & Ha & Ew & Hw0 & Pw & Cw & Hb & Hd). specialize (S Hn0).
  rewrite left_rotate_def by (rewrite Ew; auto). rewrite Ew. cbv zeta.
  assert (Nw : n <> w) by (intros <-; bad U).
  assert (Ha0 := rep_0 _ _ _ _ Ha). assert (Hb0 := rep_0 _ _ _ _ Hb). assert (Hd0 := rep_0 _ _ _ _ Hd).
  assert (Hk0 := repc_0 _ _ _ _ R). assert (Ub : forall x, (cnt x b <= 1)%nat) by (intros x; uq U x; lia).
  assert (Hbn : lft m w <> 0 -> (0 < cnt (lft m w) b)%nat) by (apply (rep_root _ _ _ _ Hb)).
  set (m1 := set_rgt m n (lft m w)).
  assert (E1 : lft m1 w = lft m w) by reflexivity. rewrite E1.
  set (m2 := if negb (lft m w =? 0) then set_par m1 (lft m w) n else m1).
  assert (P2 : forall x, x <> lft m w \/ x = 0 -> par m2 x = par m x).
  { intros x Hx. unfold m2. destruct (N.eqb_spec (lft m w) 0) as [Z|Z]; cbn [negb]; [reflexivity|]. cbn [par set_par m1].
    apply set_neq. intros ->. destruct Hx; congruence. }
  assert (P2b : lft m w <> 0 -> par m2 (lft m w) = n).
  { intros Z. unfold m2. rewrite (proj2 (N.eqb_neq _ _) Z). cbn [negb par set_par]. apply set_eq. }
  assert (L2 : lft m2 = lft m) by (unfold m2; destruct (negb _); reflexivity).
  assert (R2 : rgt m2 = set (rgt m) n (lft m w)) by (unfold m2; destruct (negb _); reflexivity).
  assert (C2 : red m2 = red m) by (unfold m2; destruct (negb _); reflexivity).
  assert (O2 : root m2 = root m) by (unfold m2; destruct (negb _); reflexivity).
  clearbody m2. clear m1 E1.
  assert (Nb : n <> lft m w \/ n = 0).
  { destruct (N.eq_dec (lft m w) 0) as [Z|Z]; [left; congruence|]. left. intros X. specialize (Hbn Z). rewrite <- X in Hbn. bad U. }
  assert (Wb : w <> lft m w \/ w = 0).
  { destruct (N.eq_dec (lft m w) 0) as [Z|Z]; [left; congruence|]. left. intros X. specialize (Hbn Z). rewrite <- X in Hbn. bad U. }
  rewrite (P2 n Nb), Pn. set (m3 := set_par m2 w q).
  assert (P3 : par m3 n = q) by (cbn [par set_par m3]; rewrite set_neq by auto; rewrite (P2 n Nb); exact Pn). rewrite P3.
  assert (Kn : cntc n k = 0%nat) by (uq U n; lia). assert (Kw : cntc w k = 0%nat) by (uq U w; lia).
  assert (Kb : forall x, (0 < cntc x k)%nat -> x <> lft m w \/ x = 0).
  { intros x Hx. left. intros ->. destruct (N.eq_dec (lft m w) 0) as [Z|Z]; [rewrite Z in Hx; lia|]. specialize (Hbn Z). uq U (lft m w). lia. }
  assert (R3 : repc m3 n q k).
  { eapply repc_agree; [| | | |exact R].
    - intros x Hx. cbn [red par m3 set_par]. rewrite C2. split; [reflexivity|]. rewrite set_neq by (intros ->; lia). apply P2, Kb, Hx.
    - intros x. uq U x. lia.
    - intros x Hx _. cbn [lft rgt m3 set_par]. rewrite L2, R2. split; [reflexivity|]. apply set_neq. intros ->. lia.
    - destruct k as [|f k]; [cbn [repc root m3 set_par] in *; rewrite O2; tauto|]. cbn [root lft rgt m3 set_par]. rewrite O2, L2, R2.
      cbn [repc cntc] in *. destruct R as (_ & _ & _ & R & _). pose proof (ind_refl (fa f)).
      assert (fa f <> n) by (intros X; rewrite <- X, ind_refl in Kn; lia). rewrite set_neq by auto.
      destruct (fl f); destruct R as [<- _]; auto. }
  assert (R4 : repc (point m3 q n w) w q k).
  { apply point_ok; auto; [intros x; uq U x; lia|]. destruct k as [|f k]; cbn [sided] in *; auto. cbn [lft m3 set_par]. rewrite L2. exact S. }
  set (m4 := point m3 q n w) in *.
  assert (Kq : q = 0 \/ (0 < cntc q k)%nat).
  { destruct k as [|f k]; cbn [repc cntc] in *; [tauto|]. destruct R as (-> & _). rewrite ind_refl. lia. }
  assert (Q : forall x, (0 < cntc x k)%nat \/ x <> q \/ x = 0) by (intros x; destruct (N.eq_dec x q) as [->|]; tauto).
  assert (L4 : forall x, x <> q -> lft m4 x = lft m x) by (intros x Hx; unfold m4; rewrite point_lft by auto; cbn [lft m3 set_par]; rewrite L2; reflexivity).
  assert (T4 : forall x, x <> q -> rgt m4 x = set (rgt m) n (lft m w) x) by (intros x Hx; unfold m4; rewrite point_rgt by auto; cbn [rgt m3 set_par]; rewrite R2; reflexivity).
  assert (P4 : forall x, par m4 x = set (par m2) w q x) by (intros x; unfold m4; rewrite point_par; reflexivity).
  assert (C4 : forall x, red m4 x = red m x) by (intros x; unfold m4; rewrite point_red; cbn [red m3 set_par]; rewrite C2; reflexivity).
  assert (O4 : red m4 = red m) by (unfold m4, point; destruct (q =? 0), (n =? lft m3 q); cbn [red set_root set_lft set_rgt m3 set_par]; exact C2).
  clearbody m4. clear m3 P3 R3 S.
  assert (Qn : n <> q) by (intros ->; destruct Kq; [congruence|lia]). assert (Qw : w <> q) by (intros ->; destruct Kq; [congruence|lia]).
  split; [|split].
  2: { exact O4. }
  2: { cbn [par set_par set_lft]. rewrite set_neq by auto. rewrite P4. rewrite set_neq by auto. apply P2. auto. }
  split; [|split; [|split]].
  - eapply repc_agree; [| | | |exact R4].
    + intros x Hx. cbn [red par set_par set_lft]. split; [reflexivity|]. apply set_neq. intros ->. lia.
    + intros x. uq U x. lia.
    + intros x Hx _. cbn [lft rgt set_par set_lft]. split; [|reflexivity]. apply set_neq. intros ->. lia.
    + destruct k as [|f k]; [cbn [repc root set_par set_lft] in *; tauto|]. cbn [root lft rgt set_par set_lft].
      cbn [repc cntc] in *. destruct R4 as (_ & _ & _ & R4 & _).
      assert (fa f <> w) by (intros X; rewrite <- X, ind_refl in Kw; lia). rewrite set_neq by auto.
      destruct (fl f); destruct R4 as [-> _]; auto.
  - cbn [rep]. split; [reflexivity|]. split; [exact Hw0|].
    cbn [par lft rgt red set_par set_lft]. rewrite !C4, Cw, Cn.
    assert (A1 : set (par m4) n w w = q) by (rewrite set_neq by auto; rewrite P4, set_eq; reflexivity).
    assert (A2 : set (lft m4) w n w = n) by apply set_eq.
    assert (A3 : set (par m4) n w n = w) by apply set_eq.
    assert (A4 : set (lft m4) w n n = lft m n) by (rewrite set_neq by auto; apply L4; auto).
    assert (A5 : rgt m4 n = lft m w) by (rewrite T4 by auto; apply set_eq).
    assert (A6 : rgt m4 w = rgt m w) by (rewrite T4 by auto; apply set_neq; auto).
    rewrite A1, A2, A3, A4, A5, A6.
    assert (AG : forall x, (0 < cnt x a + cnt x b + cnt x d)%nat -> same m (set_par (set_lft m4 w n) n w) x).
    { intros x Hx. assert (x <> n) by (intros ->; uq U n; lia). assert (x <> w) by (intros ->; uq U w; lia).
      assert (x <> q) by (intros ->; destruct Kq as [->|Kq]; [lia|uq U q; lia]).
      unfold same. cbn [lft rgt red set_par set_lft]. rewrite set_neq by auto. rewrite L4, T4, C4 by auto. rewrite set_neq by auto. auto. }
    assert (AP : forall x, (0 < cnt x a + cnt x b + cnt x d)%nat -> x <> lft m w \/ x = 0 -> par (set_par (set_lft m4 w n) n w) x = par m x).
    { intros x Hx Hx2. assert (x <> n) by (intros ->; uq U n; lia). assert (x <> w) by (intros ->; uq U w; lia).
      cbn [par set_par set_lft]. rewrite set_neq by auto. rewrite P4. rewrite set_neq by auto. apply P2; auto. }
    assert (NB : forall x, (0 < cnt x a + cnt x d)%nat -> x <> lft m w \/ x = 0).
    { intros x Hx. destruct (N.eq_dec x 0); [auto|]. left. intros ->. assert (0 < cnt (lft m w) b)%nat by auto. uq U (lft m w). lia. }
    split; [reflexivity|]. split; [reflexivity|]. split.
    + split; [reflexivity|]. split; [exact Hn0|]. split; [reflexivity|]. split; [reflexivity|]. split.
      * eapply rep_agree; [|exact Ha]. intros x Hx. split; [apply AG; lia|apply AP; [lia|apply NB; lia]].
      * eapply rep_reparent; [| | |exact Hb]; auto.
        -- intros x Hx. split; [apply AG; lia|]. intros Hx2. apply AP; [lia|auto].
        -- intros Z. assert (lft m w <> n) by (intros X; destruct Nb; congruence). assert (lft m w <> w) by (intros X; destruct Wb; congruence).
           cbn [par set_par set_lft]. rewrite set_neq by auto. rewrite P4. rewrite set_neq by auto. auto.
    + eapply rep_agree; [|exact Hd]. intros x Hx. split; [apply AG; lia|apply AP; [lia|apply NB; lia]].
  - intros x. uq U x. cbn [cnt]. lia.
  - cbn [red set_par set_lft]. rewrite C4. exact N0.
Qed.

(** ** Mirror images *)
Definition swap (m : links) : links := mkM (par m) (rgt m) (lft m) (red m) (root m).
Fixpoint mirror (t : tree) : tree := match t with E => E | T c l a r => T c (mirror r) a (mirror l) end.
Definition mirrorf (f : frame) : frame := F (negb (fl f)) (fc f) (fa f) (mirror (fs f)).
Definition mirrorc (k : ctx) : ctx := map mirrorf k.

Lemma swap_swap m : swap (swap m) = m.
Proof. destruct m; reflexivity. Qed.
Lemma mirror_mirror t : mirror (mirror t) = t.
Proof. induction t as [|c l IHl a r IHr]; cbn [mirror]; congruence. Qed.
Lemma mirrorf_mirrorf f : mirrorf (mirrorf f) = f.
Proof. destruct f as [l c a s]. unfold mirrorf. cbn [fl fc fa fs]. rewrite mirror_mirror, negb_involutive. reflexivity. Qed.
Lemma mirrorc_mirrorc k : mirrorc (mirrorc k) = k.
Proof. unfold mirrorc. rewrite map_map. rewrite (map_ext _ (fun x => x) mirrorf_mirrorf). apply map_id. Qed.
Lemma cnt_mirror x t : cnt x (mirror t) = cnt x t.
Proof. induction t as [|c l IHl a r IHr]; cbn [mirror cnt]; lia. Qed.
Lemma cntc_mirror x k : cntc x (mirrorc k) = cntc x k.
Proof. induction k as [|f k IH]; cbn [mirrorc map cntc mirrorf fa fs]; [reflexivity|]. fold (mirrorc k). rewrite IH, cnt_mirror. reflexivity. Qed.
Lemma rep_swap m : forall t q p, rep m q p t -> rep (swap m) q p (mirror t).
Proof.
  induction t as [|c l IHl a r IHr]; intros q p; cbn [mirror rep]; [auto|]. intros (-> & H0 & H1 & H2 & Hl & Hr).
  cbn [swap par lft rgt red]. repeat split; auto.
Qed.
Lemma repc_swap m : forall k p q, repc m p q k -> repc (swap m) p q (mirrorc k).
Proof.
  induction k as [|f k IH]; intros p q; cbn [mirrorc map repc]; [auto|]. fold (mirrorc k). intros (-> & H0 & H1 & Hs & Hk).
  cbn [mirrorf fa fc fs fl]. split; [reflexivity|]. split; [auto|]. split; [auto|]. split; [|apply IH; exact Hk].
  destruct (fl f); cbn [negb]; destruct Hs as [Hs1 Hs2]; (split; [exact Hs1|apply rep_swap; exact Hs2]).
Qed.
Lemma good_swap m k t p q : good m k t p q -> good (swap m) (mirrorc k) (mirror t) p q.
Proof.
  intros (R & H & U & N0). split; [apply repc_swap; auto|]. split; [apply rep_swap; auto|]. split; [|exact N0].
  intros x. rewrite cnt_mirror, cntc_mirror. apply U.
Qed.
Lemma good_swap_back m k t p q : good (swap m) (mirrorc k) (mirror t) p q -> good m k t p q.
Proof. intros H. apply good_swap in H. rewrite swap_swap, mirrorc_mirrorc, mirror_mirror in H. exact H. Qed.
Lemma good_swap_to m k t p q : good (swap m) k t p q -> good m (mirrorc k) (mirror t) p q.
Proof. intros H. apply good_swap in H. rewrite swap_swap in H. exact H. Qed.

Lemma right_rotate_swap m n : right_rotate m n = swap (left_rotate (swap m) n).
Proof.
  unfold right_rotate, left_rotate. cbn [swap par lft rgt red root]. destruct (lft m n =? 0); [symmetry; apply swap_swap|].
  cbv zeta. cbn [swap set_rgt set_lft lft rgt par red root].
  destruct (negb (rgt m (lft m n) =? 0)); cbn [set_par swap set_rgt set_lft lft rgt par red root];
    match goal with |- context [if ?a =? 0 then _ else _] => destruct (a =? 0) end; cbn [set_root set_par swap set_rgt set_lft lft rgt par red root]; try reflexivity;
    match goal with |- context [if ?a =? ?b then _ else _] => destruct (a =? b) end; reflexivity.
Qed.
Lemma right_rotate_ok m k q n cn a cw b w d : good m k (T cn (T cw a w b) n d) n q ->
  good (right_rotate m n) k (T cw a w (T cn b n d)) w q /\ red (right_rotate m n) = red m /\ par (right_rotate m n) 0 = par m 0.
Proof.
  intros G. apply good_swap in G. cbn [mirror] in G. apply left_rotate_ok in G. destruct G as (G & Hr & Hp).
  rewrite right_rotate_swap. split; [|split; [exact Hr|exact Hp]]. apply good_swap_back. rewrite swap_swap. exact G.
Qed.

(** ** Moving the position *)
Definition fill (f : frame) (t : tree) : tree := if fl f then T (fc f) t (fa f) (fs f) else T (fc f) (fs f) (fa f) t.
Fixpoint plug (k : ctx) (t : tree) : tree := match k with [] => t | f :: k => plug k (fill f t) end.

Lemma good_up m f k t p q : good m (f :: k) t p q -> par m p = q \/ t = E ->
  q = fa f /\ good m k (fill f t) (fa f) (par m (fa f)).
Proof.
  intros (R & H & U & N0) Hp. cbn [repc] in R. destruct R as (-> & H0 & H1 & Hs & Hk). split; [reflexivity|].
  split; [exact Hk|]. split; [|split; [|exact N0]].
  - unfold fill. destruct (fl f); destruct Hs as [<- Hs]; cbn [rep]; repeat (split; [first [reflexivity|assumption]|]); auto.
  - intros x. specialize (U x). cbn [cntc] in U. unfold fill. destruct (fl f); cbn [cnt]; lia.
Qed.
Lemma good_parent m k c l a r p q : good m k (T c l a r) p q -> p = a /\ par m a = q /\ red m a = c /\ a <> 0.
Proof. intros (_ & H & _). cbn [rep] in H. tauto. Qed.
Lemma good_down_l m k c l a r p q : good m k (T c l a r) p q -> good m (F true c a r :: k) l (lft m a) a.
Proof.
  intros (R & H & U & N0). cbn [rep] in H. destruct H as (-> & H0 & H1 & H2 & Hl & Hr).
  split; [|split; [exact Hl|split; [|exact N0]]].
  - cbn [repc fa fc fl fs]. rewrite H1. auto 6.
  - intros x. specialize (U x). cbn [cntc cnt fa fs] in *. lia.
Qed.
Lemma good_down_r m k c l a r p q : good m k (T c l a r) p q -> good m (F false c a l :: k) r (rgt m a) a.
Proof.
  intros (R & H & U & N0). cbn [rep] in H. destruct H as (-> & H0 & H1 & H2 & Hl & Hr).
  split; [|split; [exact Hr|split; [|exact N0]]].
  - cbn [repc fa fc fl fs]. rewrite H1. auto 6.
  - intros x. specialize (U x). cbn [cntc cnt fa fs] in *. lia.
Qed.

(** ** Colouring *)
Fixpoint paint (rd : N -> bool) (t : tree) : tree := match t with E => E | T _ l a r => T (rd a) (paint rd l) a (paint rd r) end.
Lemma cnt_paint rd x t : cnt x (paint rd t) = cnt x t.
Proof. induction t; cbn [paint cnt]; lia. Qed.
Lemma rep_paint m m' : par m' = par m -> lft m' = lft m -> rgt m' = rgt m -> forall t q p, rep m q p t -> rep m' q p (paint (red m') t).
Proof.
  intros E1 E2 E3. induction t as [|c l IHl a r IHr]; intros q p; cbn [rep paint]; [auto|]. intros (-> & H0 & H1 & H2 & Hl & Hr).
  rewrite E1, E2, E3. repeat split; auto.
Qed.
Lemma paint_same m rd : forall t q p, (forall x, (0 < cnt x t)%nat -> rd x = red m x) -> rep m q p t -> paint rd t = t.
Proof.
  induction t as [|c l IHl a r IHr]; intros q p H; cbn [rep paint cnt] in *; [auto|]. intros (-> & H0 & H1 & H2 & Hl & Hr).
  rewrite H by (rewrite ind_refl; lia). rewrite H2. rewrite (IHl _ _ (fun x Hx => H x ltac:(lia)) Hl), (IHr _ _ (fun x Hx => H x ltac:(lia)) Hr). reflexivity.
Qed.
Lemma good_paint m rd k t p q : good m k t p q -> (forall x, (0 < cntc x k)%nat -> rd x = red m x) -> rd 0 = false ->
  good (mkM (par m) (lft m) (rgt m) rd (root m)) k (paint rd t) p q.
Proof.
  intros (R & H & U & N0) Hk H0. split; [|split; [|split; [|exact H0]]].
  - eapply repc_agree; [| | | |exact R]; auto.
    + intros x. specialize (U x). lia.
    + destruct k as [|f k]; cbn [repc root lft rgt] in *; [tauto|]. destruct R as (_ & _ & _ & R & _).
      destruct (fl f); destruct R as [-> _]; auto.
  - apply (rep_paint m (mkM (par m) (lft m) (rgt m) rd (root m))); auto.
  - intros x. rewrite cnt_paint. apply U.
Qed.

(** ** The whole tree *)
Definition whole (m : links) (t : tree) : Prop := good m [] t (root m) 0.
Lemma good_whole m : forall k t p q, good m k t p q -> par m p = q \/ t = E -> whole m (plug k t).
Proof.
  induction k as [|f k IH]; intros t p q G Hp.
  - destruct G as ((<- & ->) & H & U & N0). split; [split; reflexivity|]. split; [exact H|]. split; auto.
  - destruct (good_up _ _ _ _ _ _ G Hp) as [-> G']. cbn [plug]. eapply IH; [exact G'|left; reflexivity].
Qed.
Lemma inorder_mirror t : inorder (mirror t) = rev (inorder t).
Proof. induction t as [|c l IHl a r IHr]; cbn [mirror inorder rev]; [reflexivity|]. rewrite IHl, IHr, rev_app_distr. cbn [rev]. rewrite <- app_assoc. reflexivity. Qed.
Fixpoint before (k : ctx) : list N := match k with [] => [] | f :: k => before k ++ (if fl f then [] else inorder (fs f) ++ [fa f]) end.
Fixpoint after (k : ctx) : list N := match k with [] => [] | f :: k => (if fl f then fa f :: inorder (fs f) else []) ++ after k end.
Lemma inorder_plug k : forall t, inorder (plug k t) = before k ++ inorder t ++ after k.
Proof.
  induction k as [|f k IH]; intros t; cbn [plug before after]; [rewrite app_nil_r; reflexivity|]. rewrite IH. unfold fill.
  destruct (fl f); cbn [inorder]; rewrite <- ?app_assoc; cbn [app]; rewrite <- ?app_assoc; reflexivity.
Qed.
Lemma cnt_count x t : cnt x t = count_occ N.eq_dec (inorder t) x.
Proof.
  induction t as [|c l IHl a r IHr]; cbn [cnt inorder]; [reflexivity|]. rewrite count_occ_app. cbn [count_occ]. unfold ind.
  destruct (N.eqb_spec a x), (N.eq_dec a x); try congruence; lia.
Qed.
Lemma cnt_in x t : (0 < cnt x t)%nat <-> In x (inorder t).
Proof. rewrite cnt_count, (count_occ_In N.eq_dec). lia. Qed.
Lemma whole_nodup m t : whole m t -> NoDup (inorder t) /\ ~ In 0 (inorder t).
Proof.
  intros (R & H & U & _). split.
  - rewrite (NoDup_count_occ N.eq_dec). intros x. rewrite <- cnt_count. specialize (U x). cbn [cntc] in U. lia.
  - rewrite <- cnt_in, (rep_0 _ _ _ _ H). lia.
Qed.

(** ** Balance *)
(** [rbc k pc h]: around the hole everything is in order; the hole's parent is red iff [pc], and a subtree of black height [h] fits. *)
Inductive rbc : ctx -> bool -> nat -> Prop :=
| rbc_root h : rbc [] false h
| rbc_black d a s cs h k pc : rbt cs h s -> rbc k pc (S h) -> rbc (F d false a s :: k) false h
| rbc_red d a s h f k : rbt false h s -> fc f = false -> rbc (f :: k) false h -> rbc (F d true a s :: f :: k) true h.
Lemma fill_rbt f k t c h pc : rbc (f :: k) pc h -> rbt c h t -> c && pc = false ->
  exists c' h' pc', rbt c' h' (fill f t) /\ rbc k pc' h' /\ c' && pc' = false /\ (fc f = false -> c' = false).
Proof.
  intros K H Hc. inversion K; subst; unfold fill; cbn [fl fc fa fs].
  - exists false, (S h), pc0. split; [destruct d; econstructor; eauto|]. auto.
  - rewrite andb_true_r in Hc. subst c. exists true, h, false. split; [destruct d; constructor; auto|]. split; [auto|]. split; [auto|discriminate].
Qed.
Lemma plug_rbt : forall k t c h pc, rbc k pc h -> rbt c h t -> c && pc = false -> exists c' h', rbt c' h' (plug k t).
Proof.
  induction k as [|f k IH]; intros t c h pc K H Hc; cbn [plug]; [eauto|].
  destruct (fill_rbt _ _ _ _ _ _ K H Hc) as (c' & h' & pc' & H' & K' & Hc' & _). eauto.
Qed.
Lemma rbt_mirror c h t : rbt c h t -> rbt c h (mirror t).
Proof. induction 1; cbn [mirror]; econstructor; eauto. Qed.
Lemma rbc_mirror k pc h : rbc k pc h -> rbc (mirrorc k) pc h.
Proof.
  induction 1; cbn [mirrorc map mirrorf fl fc fa fs] in *; [constructor| |].
  - econstructor; eauto using rbt_mirror.
  - constructor; auto using rbt_mirror.
Qed.
Lemma black_root c h l a r : rbt c h (T c l a r) -> exists h', rbt false h' (T false l a r).
Proof. intros H. inversion H; subst; eexists; econstructor; eauto. Qed.

(** Deleting a node: the links part. *)
Require Import List Arith NArith ZArith Bool Lia.
Require Import ZifyBool ZifyNat ZifyN.
Require Import Verif.Base Verif.ChainModel Verif.RbModel Verif.RbSpec Verif.RbLinkProofs Verif.RbInsertProofs Verif.RbDeleteProofs.
Import ListNotations.
Open Scope N_scope.

Ltac reassoc := repeat (rewrite <- app_assoc || cbn [app]); try reflexivity.

(** ** Finding a node in the tree *)
Record focus (m : links) (whole_ids : list N) (k : ctx) (c : bool) (l : tree) (n : N) (r : tree) (pc : bool) (h : nat) : Prop := {
  fo_good : good m k (T c l n r) n (par m n);
  fo_rbt : rbt c h (T c l n r);
  fo_rbc : rbc k pc h;
  fo_c : c && pc = false;
  fo_k : k = [] -> c = false;
  fo_ids : inorder (plug k (T c l n r)) = whole_ids }.

Lemma rbc_down k pc c h l a r : rbc k pc h -> rbt c h (T c l a r) -> c && pc = false -> (k = [] -> c = false) ->
  exists h' cl cr, rbt cl h' l /\ rbt cr h' r /\ c && cl = false /\ c && cr = false /\
    (forall d s, rbt cl h' s \/ rbt cr h' s -> rbc (F d c a s :: k) c h').
Proof.
  intros K H Hc Hk. inversion H; subst.
  - exists h0, c1, c2. repeat (split; [auto|]). intros d s [Hs|Hs]; econstructor; eauto.
  - exists h, false, false. repeat (split; [auto|]). intros d s Hs. cbn [andb] in Hc. subst pc.
    destruct k as [|f k]; [discriminate (Hk eq_refl)|]. constructor; [tauto| |exact K]. inversion K; reflexivity.
Qed.

Lemma focus_ok m n : forall t k p q c h pc, good m k t p q -> rbt c h t -> rbc k pc h -> c && pc = false -> (k = [] -> c = false) ->
  In n (inorder t) -> exists k' c' l r pc' h', focus m (inorder (plug k t)) k' c' l n r pc' h'.
Proof.
  induction t as [|c0 l IHl a r IHr]; intros k p q c h pc G H K Hc Hk Hn; [destruct Hn|].
  assert (c0 = c) by (rewrite <- (rbt_rootc _ _ _ H); reflexivity). subst c0.
  destruct (good_parent _ _ _ _ _ _ _ _ G) as (-> & Pa & _). cbn [inorder] in Hn. apply in_app_iff in Hn.
  destruct (rbc_down _ _ _ _ _ _ _ K H Hc Hk) as (h' & cl & cr & Hl & Hr & Xl & Xr & Kd).
  destruct Hn as [Hn|[<-|Hn]].
  - pose proof (good_down_l _ _ _ _ _ _ _ _ G) as G'.
    eapply IHl in G'; eauto; [rewrite andb_comm; exact Xl|discriminate].
  - exists k, c, l, r, pc, h. rewrite <- Pa in G. split; auto.
  - pose proof (good_down_r _ _ _ _ _ _ _ _ G) as G'.
    eapply IHr in G'; eauto; [rewrite andb_comm; exact Xr|discriminate].
Qed.

Lemma plug_app k1 k2 t : plug (k1 ++ k2) t = plug k2 (plug k1 t).
Proof. revert t. induction k1; intros t; cbn [app plug]; auto. Qed.
Lemma plug_size k : forall t, (length k + length (inorder t) <= length (inorder (plug k t)))%nat.
Proof.
  induction k as [|f k IH]; intros t; cbn [plug length]; [lia|]. specialize (IH (fill f t)).
  assert (S (length (inorder t)) <= length (inorder (fill f t)))%nat; [|lia].
  unfold fill. destruct (fl f); cbn [inorder]; rewrite app_length; cbn [length]; lia.
Qed.
Lemma cnt_plug x k : forall t, cnt x (plug k t) = (cntc x k + cnt x t)%nat.
Proof. induction k as [|f k IH]; intros t; cbn [plug cntc]; [reflexivity|]. rewrite IH. unfold fill. destruct (fl f); cbn [cnt]; lia. Qed.
Lemma cntc_app x k1 k2 : cntc x (k1 ++ k2) = (cntc x k1 + cntc x k2)%nat.
Proof. induction k1 as [|f k IH]; cbn [app cntc]; lia. Qed.

(** The leftmost node below a position. *)
Lemma minimum_ok m : forall t k p q c h pc fuel, good m k t p q -> t <> E -> rbt c h t -> rbc k pc h -> c && pc = false ->
  (k = [] -> c = false) -> (length (inorder t) <= fuel)%nat ->
  exists ky cy y r pcy hy, minimum fuel m p = Some y /\ good m (ky ++ k) (T cy E y r) y (par m y) /\ rbt cy hy (T cy E y r) /\
    rbc (ky ++ k) pcy hy /\ cy && pcy = false /\ t = plug ky (T cy E y r) /\ before ky = [] /\ (ky ++ k = [] -> cy = false).
Proof.
  induction t as [|c0 l IHl a r IHr]; intros k p q c h pc fuel G Ht H K Hc Hk Hf; [congruence|].
  assert (c0 = c) by (rewrite <- (rbt_rootc _ _ _ H); reflexivity). subst c0.
  destruct (good_parent _ _ _ _ _ _ _ _ G) as (-> & Pa & _).
  destruct (rbc_down _ _ _ _ _ _ _ K H Hc Hk) as (h' & cl & cr & Hl & Hr & Xl & Xr & Kd).
  cbn [inorder] in Hf. rewrite app_length in Hf. cbn [length] in Hf.
  destruct fuel as [|fuel]; [lia|]. cbn [minimum].
  destruct l as [|c1 l1 a1 r1].
  - assert (Z : lft m a = 0) by (destruct G as (_ & G & _); cbn [rep] in G; tauto). rewrite Z. cbn [N.eqb negb].
    exists [], c, a, r, pc, h. rewrite <- Pa in G. cbn [app plug before]. auto 12.
  - pose proof (good_down_l _ _ _ _ _ _ _ _ G) as G'.
    assert (Z : lft m a <> 0) by (destruct G as (_ & G & _); cbn [rep] in G; destruct G as (_ & _ & _ & _ & (-> & G & _) & _); exact G).
    rewrite (proj2 (N.eqb_neq _ _) Z). cbn [negb].
    destruct (IHl (F true c a r :: k) (lft m a) a cl h' c fuel G' ltac:(discriminate) Hl (Kd true r (or_intror Hr)) ltac:(rewrite andb_comm; exact Xl) ltac:(discriminate) ltac:(lia))
      as (ky & cy & y & ry & pcy & hy & M & Gy & By & Ky & Cy & Ey & Fy & _).
    exists (ky ++ [F true c a r]), cy, y, ry, pcy, hy. rewrite <- app_assoc. cbn [app].
    split; [exact M|]. split; [exact Gy|]. split; [exact By|]. split; [exact Ky|]. split; [exact Cy|].
    split; [rewrite plug_app, <- Ey; reflexivity|]. split; [|intros X; destruct ky; discriminate].
    clear - Fy. assert (Q : forall k1 k2, before (k1 ++ k2) = before k2 ++ before k1).
    { induction k1 as [|f k1 IH]; intros k2; cbn [app before]; [rewrite app_nil_r; reflexivity|]. rewrite IH, app_assoc. reflexivity. }
    rewrite Q, Fy. reflexivity.
Qed.

(** ** Replacing a subtree by another one *)
Lemma transplant_def m u v : transplant m u v = set_par (point m (par m u) u v) v (par m u).
Proof. unfold transplant. cbv zeta. unfold point. destruct (par m u =? 0), (u =? lft m (par m u)); reflexivity. Qed.

Lemma transplant_ok m k u q v w s : repc m u q k -> par m u = q -> sided u k m -> red m 0 = false -> rep m w v s -> uniq k s ->
  good (transplant m u v) k s v q /\ par (transplant m u v) v = q.
Proof.
  intros R Pu Si N0 Hs U. rewrite transplant_def, Pu. split; [|cbn [par set_par]; apply set_eq].
  assert (Uk : forall x, (cntc x k <= 1)%nat) by (intros x; specialize (U x); lia).
  pose proof (point_ok _ _ _ _ v R Uk Si) as R1. set (m1 := point m q u v) in *.
  assert (Kv : cntc v k = 0%nat).
  { destruct (N.eq_dec v 0) as [->|Z]; [exact (repc_0 _ _ _ _ R)|]. pose proof (rep_root _ _ _ _ Hs Z). specialize (U v). lia. }
  assert (Kq : forall x, (0 < cnt x s)%nat -> x <> q).
  { intros x Hx ->. destruct k as [|f k]; cbn [repc] in R.
    - destruct R as [_ R]. rewrite R in Hx. rewrite (rep_0 _ _ _ _ Hs) in Hx. lia.
    - destruct R as (R & _). rewrite R in Hx. uq U (fa f). lia. }
  split; [|split; [|split; [exact U|]]].
  - eapply repc_agree; [| | | |exact R1]; auto.
    + intros x Hx. cbn [red par set_par]. split; [reflexivity|]. apply set_neq. intros ->. lia.
    + destruct k as [|f k]; cbn [repc] in R1; [cbn [root set_par]; tauto|]. cbn [root lft rgt set_par]. destruct R1 as (_ & _ & _ & R1 & _).
      destruct (fl f); destruct R1 as [-> _]; auto.
  - eapply rep_reparent; [| | |exact Hs].
    + intros x Hx. unfold same. cbn [lft rgt red par set_par]. unfold m1. rewrite point_lft, point_rgt, point_red by auto.
      split; [auto|]. intros Hv. rewrite set_neq by auto. apply point_par.
    + intros x. specialize (U x). lia.
    + intros _. cbn [par set_par]. apply set_eq.
  - cbn [red set_par]. unfold m1. rewrite point_red. exact N0.
Qed.
Lemma transplant_far m u v x : x <> v -> par (transplant m u v) x = par m x.
Proof. intros H. rewrite transplant_def. cbn [par set_par]. rewrite set_neq by auto. apply point_par. Qed.
Lemma transplant_lft m u v x : x <> par m u -> lft (transplant m u v) x = lft m x.
Proof. intros H. rewrite transplant_def. cbn [lft set_par]. apply point_lft. auto. Qed.
Lemma transplant_rgt m u v x : x <> par m u -> rgt (transplant m u v) x = rgt m x.
Proof. intros H. rewrite transplant_def. cbn [rgt set_par]. apply point_rgt. auto. Qed.
Lemma transplant_red m u v x : red (transplant m u v) x = red m x.
Proof. rewrite transplant_def. cbn [red set_par]. apply point_red. Qed.

(** Putting node [y], already the parent of [r], in the place of [n]. *)
Definition put (m : links) (n y : N) : links :=
  let m := transplant m n y in
  let m := set_lft m y (lft m n) in
  let m := set_par m (lft m y) y in
  set_red m y (red m n).
Lemma put_ok m k q c l n y r : repc m n q k -> par m n = q -> red m n = c -> red m 0 = false -> n <> 0 -> y <> 0 -> n <> y ->
  rep m n (lft m n) l -> rep m y (rgt m y) r -> uniq k (T c l y r) -> uniq k (T c l n r) ->
  good (put m n y) k (T c l y r) y q /\ (l <> E -> par (put m n y) 0 = par m 0).
Proof.
  intros R Pn Cn N0 Zn Zy D Hl Hr U Un. unfold put. cbv zeta.
  assert (Uk : forall x, (cntc x k <= 1)%nat) by (intros x; specialize (U x); lia).
  assert (Si : sided n k m).
  { destruct k as [|f k]; cbn [sided]; [exact I|]. intros Hf X. cbn [repc] in R. rewrite Hf in R. destruct R as (_ & _ & _ & [_ R] & _).
    rewrite <- X in R. pose proof (rep_root _ _ _ _ R Zn). uq Un n. lia. }
  pose proof (point_ok _ _ _ _ y R Uk Si) as R1. rewrite transplant_def, Pn.
  assert (Q : forall x, (0 < cnt x (T c l y r))%nat \/ x = n -> x <> q).
  { assert (q = 0 \/ (0 < cntc q k)%nat) as [->|Hq].
    { destruct k as [|f k]; cbn [repc cntc] in *; [tauto|]. destruct R as (-> & _). rewrite ind_refl. lia. }
    - intros x [Hx| ->]; [|exact Zn]. intros ->. cbn [cnt] in Hx. rewrite (rep_0 _ _ _ _ Hl), (rep_0 _ _ _ _ Hr), ind_neq in Hx by auto. lia.
    - intros x [Hx| ->] ->; [specialize (U q); lia|]. uq Un q. lia. }
  set (m1 := point m q n y) in *.
  assert (L1 : forall x, (0 < cnt x (T c l y r))%nat \/ x = n -> lft m1 x = lft m x) by (intros; apply point_lft; auto).
  assert (T1 : forall x, (0 < cnt x (T c l y r))%nat \/ x = n -> rgt m1 x = rgt m x) by (intros; apply point_rgt; auto).
  assert (P1 : forall x, par m1 x = par m x) by (intros; apply point_par).
  assert (C1 : forall x, red m1 x = red m x) by (intros; apply point_red).
  cbn [lft set_par par set_lft red]. rewrite (L1 n) by auto. rewrite set_eq, C1, Cn.
  set (ln := lft m n) in *. clearbody m1.
  assert (Kln : cntc ln k = 0%nat /\ ln <> y /\ cnt ln r = 0%nat).
  { destruct (N.eq_dec ln 0) as [X|X].
    - rewrite X, (repc_0 _ _ _ _ R), (rep_0 _ _ _ _ Hr). auto.
    - pose proof (rep_root _ _ _ _ Hl X). uq U ln. split; [lia|]. split; [|lia]. intros X2. rewrite <- X2, ind_refl in Ux. lia. }
  destruct Kln as (Kln & Dy & Rln). assert (Ky : cntc y k = 0%nat) by (uq U y; lia).
  assert (Yl : cnt y l = 0%nat /\ cnt y r = 0%nat) by (uq U y; lia). destruct Yl as [Yl Yr].
  assert (Ul : forall x, (cnt x l <= 1)%nat /\ (cnt x r <= 1)%nat) by (intros x; uq U x; lia).
  split; [split; [|split; [|split; [exact U|]]]|].
  - eapply repc_agree; [| | | |exact R1]; auto.
    + intros x Hx. cbn [red par set_par set_red set_lft]. rewrite !set_neq by (intros ->; lia). auto.
    + intros x Hx _. cbn [lft rgt set_par set_red set_lft]. rewrite !set_neq by (intros ->; lia). auto.
    + destruct k as [|f k]; cbn [repc] in R1; cbn [root lft rgt set_par set_red set_lft]; [tauto|].
      cbn [cntc] in Ky. assert (fa f <> y) by (intros X; rewrite X, ind_refl in Ky; lia). rewrite set_neq by auto.
      destruct R1 as (_ & _ & _ & R1 & _). destruct (fl f); destruct R1 as [-> _]; auto.
  - cbn [rep red par lft rgt set_par set_red set_lft]. rewrite !set_eq. rewrite (set_neq _ ln) by auto. rewrite set_eq.
    split; [reflexivity|]. split; [exact Zy|]. split; [reflexivity|]. split; [reflexivity|]. split.
    + eapply rep_reparent; [| | |exact Hl].
      * intros x Hx. assert (x <> y) by (intros ->; lia). unfold same. cbn [red par lft rgt set_par set_red set_lft]. rewrite !(set_neq _ y) by auto.
        rewrite L1, T1, C1 by (left; cbn [cnt]; lia). split; [auto|]. intros Hv. rewrite !set_neq by auto. apply P1.
      * intros x. apply Ul.
      * intros _. cbn [par set_par set_red set_lft]. apply set_eq.
    + rewrite (T1 y) by (left; cbn [cnt]; rewrite ind_refl; lia).
      eapply rep_agree; [|exact Hr]. intros x Hx. assert (x <> y) by (intros ->; lia). assert (x <> ln) by (intros ->; lia).
      unfold same. cbn [red par lft rgt set_par set_red set_lft]. rewrite !set_neq by auto.
      rewrite L1, T1, C1, P1 by (left; cbn [cnt]; lia). auto.
  - cbn [red set_red set_par set_lft]. rewrite set_neq by auto. rewrite C1. exact N0.
  - intros Hne. cbn [par set_red set_par set_lft]. destruct l as [|cl ll a lr]; [congruence|]. cbn [rep] in Hl.
    assert (ln <> 0) by (destruct Hl as (-> & Hl & _); exact Hl). rewrite !set_neq by auto. apply P1.
Qed.

(** ** The last steps *)
Lemma rbt_false_0 t : rbt false 0 t -> t = E.
Proof. inversion 1. reflexivity. Qed.
Lemma lack_child c h t : rbt c h t -> lacking t (S h).
Proof.
  intros H. destruct c.
  - inversion H; subst. left. eexists _, _, _. split; [reflexivity|]. econstructor; eauto.
  - right. eauto.
Qed.
(** What is left after the node has been taken out, ready for repair. *)
Lemma repair f (cd : bool) m k t x q pc h : (length k + 2 <= f)%nat -> good m k t x q -> par m x = q -> rbc k pc h ->
  (if cd then t = E /\ rbt false h t else lacking t h) ->
  exists m' t', (if cd then Some m else delete_fixup f m x) = Some m' /\ whole m' t' /\ inorder t' = inorder (plug k t) /\ exists h', rbt false h' t'.
Proof.
  intros Hf G P K H. destruct cd.
  - destruct H as [-> H]. exists m, (plug k E). split; [reflexivity|]. split; [eapply good_whole; eauto|]. split; [reflexivity|].
    eapply plug_black; eauto.
  - rewrite <- P in G. eapply delete_fixup_ok; eauto.
Qed.
Lemma repc_parent m p q k : repc m p q k -> match k with [] => q = 0 | f :: _ => q = fa f end.
Proof. destruct k; cbn [repc]; tauto. Qed.

Lemma rbc_rename a b ky d c s k : forall pc h, rbc (ky ++ F d c a s :: k) pc h -> rbc (ky ++ F d c b s :: k) pc h.
Proof.
  induction ky as [|f ky IH]; intros pc h H; cbn [app] in *.
  - inversion H; subst; econstructor; eauto.
  - inversion H; subst; [econstructor; eauto|]. destruct ky as [|g ky]; cbn [app] in *.
    + match goal with E1 : _ :: _ = F _ _ _ _ :: _ |- _ => injection E1 as -> -> | E1 : F _ _ _ _ :: _ = _ :: _ |- _ => injection E1 as <- <- end.
      constructor; auto.
    + match goal with E1 : _ :: _ = _ :: _ |- _ => injection E1 as ? ?; subst end. constructor; auto.
Qed.

Lemma good_into m : forall ky t k p q, good m k (plug ky t) p q -> exists p' q', good m (ky ++ k) t p' q' /\ (ky = [] -> p' = p /\ q' = q).
Proof.
  induction ky as [|f ky IH]; intros t k p q G; cbn [plug app] in *; [eauto|]. apply IH in G. destruct G as (p' & q' & G & _).
  unfold fill in G. destruct f as [d c a s]. cbn [fl fc fa fs] in G. destruct d.
  - exists (lft m a), a. split; [eapply good_down_l; exact G|discriminate].
  - exists (rgt m a), a. split; [eapply good_down_r; exact G|discriminate].
Qed.

Lemma clear_ok m t n : whole m t -> ~ In n (inorder t) -> whole (set_rgt (set_lft (set_par m n 0) n 0) n 0) t.
Proof.
  intros ((_ & _) & H & U & N0) Hn. split; [split; reflexivity|]. split; [|split; [exact U|exact N0]]. cbn [root set_rgt set_lft set_par].
  eapply rep_agree; [|exact H]. intros x Hx. assert (x <> n) by (intros ->; apply Hn, cnt_in; exact Hx).
  unfold same. cbn [lft rgt red par set_rgt set_lft set_par]. rewrite !set_neq by auto. auto.
Qed.

Definition detach (fuel : nat) (m : links) (n : N) : option (links * N * bool) :=
  if lft m n =? 0 then
    Some (transplant m n (rgt m n), rgt m n, red m n)
  else if rgt m n =? 0 then
    Some (transplant m n (lft m n), lft m n, red m n)
  else
    y <- minimum fuel m (rgt m n) ;;
    let c := red m y in
    let x := rgt m y in
    let m := if par m y =? n then set_par m x y
             else
               let m := transplant m y (rgt m y) in
               let m := set_rgt m y (rgt m n) in
               set_par m (rgt m y) y in
    Some (put m n y, x, c).
Lemma unlink_def fuel m n : unlink fuel m n =
  match detach fuel m n with
  | None => None
  | Some (m, x, c) =>
      match (if c then Some m else delete_fixup fuel m x) with
      | None => None
      | Some m => Some (set_rgt (set_lft (set_par m n 0) n 0) n 0)
      end
  end.
Proof.
  unfold unlink, detach. destruct (lft m n =? 0); [reflexivity|]. destruct (rgt m n =? 0); [reflexivity|].
  destruct (minimum fuel m (rgt m n)); reflexivity.
Qed.

(** Taking the node out leaves its neighbours in order and at most one black node missing. *)
Definition detached (m : links) (f : nat) (n : N) (ids : list N) : Prop :=
  exists m' x c k t q pc h, detach f m n = Some (m', x, c) /\ good m' k t x q /\ par m' x = q /\ rbc k pc h /\
    (if c then t = E /\ rbt false h t else lacking t h) /\ inorder (plug k t) = ids.

Lemma sided_not m k n q c l r : good m k (T c l n r) n q -> sided n k m.
Proof. intros (R & H & U & _). eapply sided_tree; eauto. cbn [rep] in H. tauto. Qed.

Lemma detach_left m f ids k c n r pc h : focus m ids k c E n r pc h -> detached m f n (before k ++ inorder r ++ after k).
Proof.
  intros [G B K Hc Hk I]. pose proof G as (R & Hn & U & N0). cbn [rep] in Hn. destruct Hn as (_ & Zn & _ & Cn & Ll & Hr).
  exists (transplant m n (rgt m n)), (rgt m n), c, k, r, (par m n), pc, h. unfold detach. rewrite Ll, Cn. split; [reflexivity|].
  assert (Ur : uniq k r) by (intros x; specialize (U x); cbn [cnt] in U; lia).
  destruct (transplant_ok m k n (par m n) (rgt m n) n r R eq_refl (sided_not _ _ _ _ _ _ _ G) N0 Hr Ur) as [G' P'].
  split; [exact G'|]. split; [exact P'|]. split; [exact K|]. split; [|apply inorder_plug].
  destruct c; inversion B; subst.
  - match goal with H : rbt false _ E |- _ => inversion H; subst end.
    match goal with H : rbt false 0 r |- _ => apply rbt_false_0 in H; subst r end. split; [reflexivity|constructor].
  - eapply lack_child; eauto.
Qed.
Lemma detach_right m f ids k c n l pc h : focus m ids k c l n E pc h -> l <> E -> detached m f n (before k ++ inorder l ++ after k).
Proof.
  intros [G B K Hc Hk I] Hne. pose proof G as (R & Hn & U & N0). cbn [rep] in Hn. destruct Hn as (_ & Zn & _ & Cn & Hl & Rl).
  exists (transplant m n (lft m n)), (lft m n), c, k, l, (par m n), pc, h. unfold detach. rewrite Rl, Cn.
  assert (Zl : lft m n <> 0) by (destruct l; [congruence|]; cbn [rep] in Hl; destruct Hl as (-> & Hl & _); exact Hl).
  rewrite (proj2 (N.eqb_neq _ _) Zl). split; [reflexivity|].
  assert (Ur : uniq k l) by (intros x; specialize (U x); cbn [cnt] in U; lia).
  destruct (transplant_ok m k n (par m n) (lft m n) n l R eq_refl (sided_not _ _ _ _ _ _ _ G) N0 Hl Ur) as [G' P'].
  split; [exact G'|]. split; [exact P'|]. split; [exact K|]. split; [|apply inorder_plug].
  destruct c; inversion B; subst.
  - match goal with H : rbt false _ E |- _ => inversion H; subst end.
    match goal with H : rbt false 0 l |- _ => apply rbt_false_0 in H; subst l end. congruence.
  - eapply lack_child; eauto.
Qed.

Lemma good_climb m : forall ky k t p q, good m (ky ++ k) t p q -> par m p = q \/ t = E -> ky <> [] ->
  exists p', good m k (plug ky t) p' (par m p').
Proof.
  induction ky as [|f ky IH]; intros k t p q G Hp Hk; [congruence|]. cbn [app plug] in *.
  destruct (good_up _ _ _ _ _ _ G Hp) as [_ G']. destruct ky as [|g ky]; [eauto|]. eapply IH; [exact G'|left; reflexivity|discriminate].
Qed.
Lemma not_in_good m k t p q y : good m k t p q -> y <> p -> (forall x, (0 < cnt x t)%nat -> x <> y) -> cnt y t = 0%nat.
Proof. intros _ _ H. destruct (cnt y t) eqn:X; [reflexivity|]. destruct (H y); [lia|reflexivity]. Qed.

Lemma detach_both m f ids k c l n r pc h : focus m ids k c l n r pc h -> l <> E -> r <> E -> (length (inorder r) <= f)%nat ->
  detached m f n (before k ++ inorder l ++ inorder r ++ after k).
Proof.
  intros [G B K Hc Hk I] Hl0 Hr0 Hf. pose proof G as (R & Hn & U & N0). cbn [rep] in Hn. destruct Hn as (_ & Zn & _ & Cn & Hl & Hr).
  assert (Zl : lft m n <> 0) by (destruct l; [congruence|]; cbn [rep] in Hl; destruct Hl as (-> & Hl & _); exact Hl).
  assert (Zr : rgt m n <> 0) by (destruct r; [congruence|]; cbn [rep] in Hr; destruct Hr as (-> & Hr & _); exact Hr).
  destruct (rbc_down _ _ _ _ _ _ _ K B Hc Hk) as (h' & cl & cr & Bl & Br & Xl & Xr & Kd).
  destruct (minimum_ok m r (F false c n l :: k) (rgt m n) n cr h' c f (good_down_r _ _ _ _ _ _ _ _ G) Hr0 Br (Kd false l (or_introl Bl))
    ltac:(rewrite andb_comm; exact Xr) ltac:(discriminate) Hf) as (ky & cy & y & ry & pcy & hy & M & Gy & By & Ky & Cy & Ey & Fy & _).
  pose proof Gy as (Ry & Hy & Uy & _). cbn [rep] in Hy. destruct Hy as (_ & Zy & _ & Cy' & Ly & Hry).
  assert (Uc : forall z, (cntc z ky + ind n z + cnt z l + cntc z k + ind y z + cnt z ry <= 1)%nat).
  { intros z. specialize (Uy z). rewrite cntc_app in Uy. cbn [cntc cnt fa fs] in Uy. lia. }
  assert (Dny : n <> y) by (intros X; specialize (Uc n); rewrite <- X, ind_refl in Uc; lia).
  assert (Lk : (if cy then ry = E /\ rbt false hy ry else lacking ry hy)).
  { destruct cy; inversion By; subst.
    - match goal with H : rbt false _ E |- _ => inversion H; subst end.
      match goal with H : rbt false 0 ry |- _ => apply rbt_false_0 in H; subst ry end. split; [reflexivity|constructor].
    - eapply lack_child; eauto. }
  assert (Io : inorder (plug (ky ++ F false c y l :: k) ry) = before k ++ inorder l ++ inorder r ++ after k).
  { rewrite plug_app, Ey. cbn [plug]. rewrite !inorder_plug. unfold fill. cbn [fl fc fa fs inorder]. rewrite !inorder_plug, Fy.
    cbn [inorder]. reassoc. }
  assert (K0 := repc_0 _ _ _ _ R). assert (L0 := rep_0 _ _ _ _ Hl). assert (Ry0 := rep_0 _ _ _ _ Hry).
  set (x := rgt m y) in *.
  assert (Ux : x = 0 \/ (0 < cnt x ry)%nat) by (destruct (N.eq_dec x 0) as [X|X]; [auto|right; exact (rep_root _ _ _ _ Hry X)]).
  assert (Fin : forall m2 r', repc m2 n (par m n) k -> par m2 n = par m n -> red m2 n = c -> red m2 0 = false -> rep m2 n (lft m2 n) l ->
     rep m2 y (rgt m2 y) (plug ky ry) -> 
     (ry = E -> par m2 0 = match ky with [] => y | g :: _ => fa g end) ->
     r' = plug ky ry ->
     exists q', good (put m2 n y) (ky ++ F false c y l :: k) ry x q' /\ par (put m2 n y) x = q').
  { intros m2 r' R2 P2 C2 N2 Hl2 Hr2 HE ->.
    destruct (put_ok m2 k (par m n) c l n y (plug ky ry) R2 P2 C2 N2 Zn Zy Dny Hl2 Hr2) as [G3 P3].
    { intros z. specialize (Uc z). cbn [cnt]. rewrite cnt_plug. lia. }
    { intros z. specialize (Uc z). cbn [cnt]. rewrite cnt_plug. lia. }
    apply good_down_r in G3. apply good_into in G3. destruct G3 as (p' & q' & G3 & Q3).
    assert (Ep : p' = x) by (destruct G3 as (_ & H3 & _); eapply rep_ptr; [exact H3|exact Hry]). subst p'.
    exists q'. split; [exact G3|]. destruct ry as [|c1 l1 a1 r1].
    - assert (X : x = 0) by (cbn [rep] in Hry; exact Hry). rewrite X. rewrite (P3 Hl0), (HE eq_refl). destruct G3 as (R3 & _).
      apply repc_parent in R3. destruct ky; cbn [app fa] in R3; auto.
    - destruct (good_parent _ _ _ _ _ _ _ _ G3) as (-> & P4 & _). exact P4. }
  unfold detached, detach. rewrite (proj2 (N.eqb_neq _ _) Zl), (proj2 (N.eqb_neq _ _) Zr), M. cbn [obind]. fold x. rewrite Cy'. cbv zeta.
  destruct ky as [|g ky].
  - (* the successor is the right child *)
    cbn [app] in Gy, Ry. assert (Py : par m y = n) by (cbn [repc fa] in Ry; tauto). rewrite Py, N.eqb_refl.
    destruct (Fin (set_par m x y) ry) as (q' & Gf & Pf); [..|].
    + eapply repc_agree; [| | | |exact R]; auto.
      * intros z Hz. cbn [red par set_par]. split; [reflexivity|]. apply set_neq. intros ->. destruct Ux as [X|X]; [rewrite X in Hz; lia|]. specialize (Uc x). lia.
      * intros z. specialize (U z). lia.
      * destruct k as [|f0 k]; cbn [repc] in R; cbn [root lft rgt set_par]; [tauto|]. destruct R as (_ & _ & _ & R & _).
        destruct (fl f0); destruct R as [-> _]; auto.
    + cbn [par set_par]. apply set_neq. intros X. destruct Ux as [X2|X2]; [congruence|]. specialize (Uc x). rewrite X, ind_refl in Uc. lia.
    + exact Cn.
    + exact N0.
    + cbn [lft set_par]. eapply rep_agree; [|exact Hl]. intros z Hz. split; [split; [|split]; reflexivity|]. cbn [par set_par]. apply set_neq.
      intros ->. destruct Ux as [X|X]; [rewrite X in Hz; lia|]. specialize (Uc x). lia.
    + cbn [rgt set_par plug]. fold x. eapply rep_reparent; [| | |exact Hry].
      * intros z Hz. split; [split; [|split]; reflexivity|]. intros Hv. cbn [par set_par]. apply set_neq. exact Hv.
      * intros z. specialize (Uc z). lia.
      * intros _. cbn [par set_par]. apply set_eq.
    + intros X. cbn [par set_par]. rewrite X in Hry. cbn [rep] in Hry. rewrite Hry. apply set_eq.
    + reflexivity.
    + exists (put (set_par m x y) n y), x, cy, (F false c y l :: k), ry, q', pcy, hy. split; [reflexivity|].
      split; [exact Gf|]. split; [exact Pf|]. split; [|split; [exact Lk|exact Io]]. apply (rbc_rename n y [] false c l k). exact Ky.
  - (* the successor is deeper *)
    assert (Py : par m y = fa g) by (cbn [app] in Ry; apply repc_parent in Ry; exact Ry).
    assert (Dg : fa g <> n) by (intros X; specialize (Uc n); cbn [cntc] in Uc; rewrite X, !ind_refl in Uc; lia).
    rewrite Py, (proj2 (N.eqb_neq _ _) Dg).
    destruct (transplant_ok m (((g :: ky) ++ F false c n l :: k)) y (par m y) x y ry Ry eq_refl (sided_not _ _ _ _ _ _ _ Gy) N0 Hry) as [G1 P1].
    { intros z. specialize (Uc z). rewrite cntc_app. cbn [cntc fa fs]. cbn [cntc] in Uc. lia. }
    set (m1 := transplant m y x) in *.
    change ((g :: ky) ++ F false c n l :: k) with ((g :: ky) ++ [F false c n l] ++ k) in G1. rewrite app_assoc in G1.
    destruct (good_climb _ _ _ _ _ _ G1 (or_introl P1) ltac:(discriminate)) as (p' & G2). rewrite plug_app in G2. cbn [plug] in G2.
    change (fill (F false c n l) (plug ky (fill g ry))) with (T c l n (plug (g :: ky) ry)) in G2.
    pose proof (good_parent _ _ _ _ _ _ _ _ G2) as (Ep & _ & Cn1 & _). subst p'.
    pose proof G2 as (R2 & H2 & U2 & N2). cbn [rep] in H2. destruct H2 as (_ & _ & _ & _ & Hl2 & Hr2).
    assert (Pn1 : par m1 n = par m n) by (apply transplant_far; intros X; destruct Ux as [X2|X2]; [congruence|]; specialize (Uc x); rewrite X, ind_refl in Uc; lia).
    assert (Zr1 : rgt m1 n <> 0).
    { intros X. rewrite X in Hr2. destruct (plug (g :: ky) ry) eqn:XX; [|cbn [rep] in Hr2; destruct Hr2 as (X1 & X2 & _); congruence].
      assert (X3 : cnt (fa g) (plug (g :: ky) ry) = 0%nat) by (rewrite XX; reflexivity). rewrite cnt_plug in X3. cbn [cntc] in X3. rewrite ind_refl in X3. lia. }
    assert (Ir : (0 < cnt (rgt m1 n) (plug (g :: ky) ry))%nat) by (exact (rep_root _ _ _ _ Hr2 Zr1)).
    cbn [rgt set_rgt]. rewrite set_eq. set (xr := rgt m1 n) in *.
    set (m2 := set_par (set_rgt m1 y xr) xr y).
    assert (Uy2 : cntc y k = 0%nat /\ cnt y l = 0%nat /\ cnt y (plug (g :: ky) ry) = 0%nat).
    { specialize (Uc y). rewrite ind_refl in Uc. rewrite cnt_plug. lia. }
    destruct Uy2 as (Yk & Yl & Yr). assert (Yxr : y <> xr) by (intros X; rewrite <- X in Ir; lia).
    destruct (Fin m2 (plug (g :: ky) ry)) as (q' & Gf & Pf); [..|].
    + rewrite Pn1 in R2. eapply repc_agree; [| | | |exact R2].
      * intros z Hz. cbn [red par set_par set_rgt m2]. split; [reflexivity|]. apply set_neq. intros ->. specialize (U2 xr). cbn [cnt] in U2. lia.
      * intros z. specialize (U2 z). lia.
      * intros z Hz _. cbn [lft rgt set_par set_rgt m2]. split; [reflexivity|]. apply set_neq. intros ->. lia.
      * destruct k as [|f0 k]; cbn [repc] in R2; cbn [root lft rgt set_par set_rgt m2]; [tauto|].
        assert (fa f0 <> y) by (intros X; cbn [cntc] in Yk; rewrite X, ind_refl in Yk; lia). rewrite set_neq by auto.
        destruct R2 as (_ & _ & _ & R2 & _). destruct (fl f0); destruct R2 as [-> _]; auto.
    + cbn [par set_par set_rgt m2]. rewrite set_neq; [exact Pn1|]. intros X. specialize (U2 xr). cbn [cnt] in U2. rewrite <- X, ind_refl in U2. rewrite <- X in Ir. lia.
    + exact Cn1.
    + exact N2.
    + cbn [lft set_par set_rgt m2]. eapply rep_agree; [|exact Hl2]. intros z Hz. unfold same. cbn [lft rgt red par set_par set_rgt m2].
      rewrite !set_neq; [auto|..]; intros ->; first [lia|specialize (U2 xr); cbn [cnt] in U2; lia].
    + cbn [rgt set_par set_rgt m2]. rewrite set_eq. eapply rep_reparent; [| | |exact Hr2].
      * intros z Hz. unfold same. cbn [lft rgt red par set_par set_rgt m2]. rewrite set_neq by (intros ->; lia). split; [auto|]. intros Hv. apply set_neq. exact Hv.
      * intros z. specialize (U2 z). cbn [cnt] in U2. lia.
      * intros _. cbn [par set_par set_rgt m2]. apply set_eq.
    + intros X. cbn [par set_par set_rgt m2]. rewrite set_neq by auto. assert (X0 : x = 0) by (rewrite X in Hry; exact Hry).
      rewrite X0 in P1. rewrite P1. exact Py.
    + reflexivity.
    + exists (put m2 n y), x, cy, ((g :: ky) ++ F false c y l :: k), ry, q', pcy, hy. split; [reflexivity|].
      split; [exact Gf|]. split; [exact Pf|]. split; [|split; [exact Lk|exact Io]]. apply (rbc_rename n y (g :: ky) false c l k). exact Ky.
Qed.

Theorem unlink_ok m t h n f : whole m t -> rbt false h t -> In n (inorder t) -> (length (inorder t) + 1 <= f)%nat ->
  exists m' t' l1 l2, unlink f m n = Some m' /\ whole m' t' /\ inorder t = l1 ++ n :: l2 /\ inorder t' = l1 ++ l2 /\ exists h', rbt false h' t'.
Proof.
  intros W B Hn Hf. destruct (whole_nodup _ _ W) as [Nd _].
  destruct (focus_ok m n t [] (root m) 0 false h false W B (rbc_root h) eq_refl ltac:(reflexivity) Hn) as (k & c & l & r & pc & h' & Fo).
  cbn [plug] in Fo. pose proof (fo_ids _ _ _ _ _ _ _ _ _ Fo) as I. rewrite inorder_plug in I. cbn [inorder] in I.
  assert (D : detached m f n (before k ++ inorder l ++ inorder r ++ after k)).
  { destruct (N.eq_dec (lft m n) 0) as [Z|Z].
    - assert (l = E). { destruct (fo_good _ _ _ _ _ _ _ _ _ Fo) as (_ & X & _). cbn [rep] in X. destruct X as (_ & _ & _ & _ & X & _).
        destruct l; [reflexivity|]. cbn [rep] in X. destruct X as (X & X2 & _). congruence. }
      subst l. eapply detach_left; eauto.
    - assert (l <> E). { intros ->. destruct (fo_good _ _ _ _ _ _ _ _ _ Fo) as (_ & X & _). cbn [rep] in X. tauto. }
      destruct r as [|cr rl ra rr]; [cbn [inorder app]; eapply detach_right; eauto|].
      eapply detach_both; eauto; [discriminate|]. rewrite <- I in Hf. rewrite !app_length in Hf. cbn [length] in Hf. lia. }
  destruct D as (m1 & x & c1 & k1 & t1 & q1 & pc1 & h1 & D1 & G1 & P1 & K1 & L1 & I1).
  assert (Hk1 : (length k1 + 2 <= f)%nat).
  { pose proof (plug_size k1 t1) as X. rewrite I1 in X. rewrite <- I in Hf. rewrite ?app_length in *. cbn [length] in Hf. rewrite ?app_length in *. cbn [length] in *. rewrite ?app_length in *. lia. }
  destruct (repair f c1 m1 k1 t1 x q1 pc1 h1 Hk1 G1 P1 K1 L1) as (m2 & t2 & E2 & W2 & I2 & B2).
  rewrite unlink_def, D1, E2. eexists _, t2, (before k ++ inorder l), (inorder r ++ after k).
  split; [reflexivity|]. rewrite I2, I1. split; [|split; [rewrite <- I; reassoc|split; [reassoc|exact B2]]].
  apply clear_ok; [exact W2|]. rewrite I2, I1. rewrite <- I in Nd.
  replace (before k ++ (inorder l ++ n :: inorder r) ++ after k) with ((before k ++ inorder l) ++ n :: inorder r ++ after k) in Nd by reassoc.
  apply NoDup_remove_2 in Nd. rewrite <- app_assoc in Nd. exact Nd.
Qed.

Require Import List Arith NArith ZArith Bool Lia.
Require Import ZifyBool ZifyNat ZifyN.
Require Import Verif.Base Verif.ChainModel Verif.RbModel Verif.RbSpec Verif.RbLinkProofs.
Import ListNotations.
Open Scope N_scope.

Definition rootc (t : tree) : bool := match t with E => false | T c _ _ _ => c end.
Lemma rep_rootc m q p t : rep m q p t -> red m 0 = false -> red m p = rootc t.
Proof. destruct t; cbn [rep rootc]; [intros ->; auto|]. intros (-> & _ & _ & H & _) _. exact H. Qed.
Lemma rbt_rootc c h t : rbt c h t -> rootc t = c.
Proof. inversion 1; reflexivity. Qed.

Definition ins_left (m : links) (n : N) : links * N :=
  let tmp := rgt m (par m (par m n)) in
  if red m tmp then
    (set_red (set_red (set_red m (par m n) false) tmp false) (par m (par m n)) true, par m (par m n))
  else
    let '(m, n) := if n =? rgt m (par m n) then (left_rotate m (par m n), par m n) else (m, n) in
    let m := set_red m (par m n) false in
    let m := set_red m (par m (par m n)) true in
    (right_rotate m (par m (par m n)), n).
Definition ins_right (m : links) (n : N) : links * N :=
  let r := ins_left (swap m) n in (swap (fst r), snd r).

Lemma insert_fixup_S f m n : insert_fixup (S f) m n =
  if red m (par m n) then
    if par m n =? lft m (par m (par m n)) then let (m', n') := ins_left m n in insert_fixup f m' n'
    else let (m', n') := ins_right m n in insert_fixup f m' n'
  else Some (set_red m (root m) false).
Proof.
  cbn [insert_fixup]. destruct (red m (par m n)); [|reflexivity]. destruct (par m n =? lft m (par m (par m n))).
  - unfold ins_left. destruct (red m (rgt m (par m (par m n)))); [reflexivity|]. destruct (n =? rgt m (par m n)); reflexivity.
  - unfold ins_right, ins_left. cbn [swap par lft rgt red root].
    destruct (red m (lft m (par m (par m n)))); [reflexivity|].
    destruct (n =? lft m (par m n)); cbn [fst snd]; rewrite ?right_rotate_swap, ?swap_swap; reflexivity.
Qed.

Ltac neq U a b := let D := fresh "Dif" in assert (D : a <> b) by (let X := fresh "X" in let Ux := fresh "Ux" in intros X; pose proof (U a) as Ux; cbn [cnt cntc fa fs] in Ux; rewrite <- ?X in Ux; rewrite ?ind_refl in Ux; lia).
Ltac snq := repeat first [rewrite set_eq|rewrite set_neq by (first [assumption|apply not_eq_sym; assumption])].

Lemma ins_left_red m k2 dl p sib g ul ua ur s n q0 :
  good m (F dl true p sib :: F true false g (T true ul ua ur) :: k2) s n q0 -> par m n = p -> red m n = true ->
  exists m', ins_left m n = (m', g) /\ (par m' g = par m g) /\
    good m' k2 (T true (fill (F dl false p sib) s) g (T false ul ua ur)) g (par m' g).
Proof.
  intros G Pn Cn. pose proof G as (_ & Hs & _).
  assert (Q0 : q0 = p) by (destruct G as ((-> & _) & _); reflexivity). subst q0.
  destruct (good_up _ _ _ _ _ _ G (or_introl Pn)) as [_ G1]. cbn [fa] in G1.
  assert (Pp : par m p = g) by (destruct G as (R & _); cbn [repc fa] in R; tauto).
  destruct (good_up _ _ _ _ _ _ G1 (or_introl eq_refl)) as [_ G2]. cbn [fa] in G2.
  unfold fill in G2 at 1. cbn [fl fc fa fs] in G2.
  assert (Ru : rgt m g = ua) by (destruct G2 as (_ & H & _); cbn [rep] in H; tauto).
  assert (Cu : red m ua = true) by (destruct G2 as (_ & H & _); cbn [rep] in H; tauto).
  assert (Hp0 : p <> 0 /\ g <> 0 /\ ua <> 0).
  { destruct G2 as (_ & H & _); cbn [rep] in H. destruct G as (R & _). cbn [repc fa] in R. tauto. }
  destruct Hp0 as (Zp & Zg & Zu).
  unfold ins_left. rewrite Pn, Pp, Ru, Cu. eexists. split; [reflexivity|]. split; [reflexivity|].
  set (rd := set (set (set (red m) p false) ua false) g true).
  pose proof G as (_ & _ & U & N0).
  neq U p g. neq U p ua. neq U g ua.
  assert (Gp := good_paint m rd k2 _ _ _ G2). cbn [par set_red].
  match type of Gp with _ -> _ -> good _ _ ?t _ _ => assert (Et : t = T true (fill (F dl false p sib) s) g (T false ul ua ur)) end.
  { destruct G2 as (_ & HH & _). unfold fill in *. cbn [fl fc fa fs] in *.
    assert (Sub : forall x, (0 < cnt x ul + cnt x ur + cnt x sib + cnt x s)%nat -> rd x = red m x).
    { intros x Hx. unfold rd. rewrite !set_neq; auto; intros ->; bad U. }
    cbn [paint]. cbn [rep] in HH. destruct HH as (_ & _ & _ & _ & Hp & Hu).
    assert (rd g = true) by (unfold rd; snq; reflexivity). assert (rd ua = false) by (unfold rd; snq; reflexivity).
    assert (rd p = false) by (unfold rd; snq; reflexivity). 
    destruct Hu as (_ & _ & _ & _ & Hul & Hur).
    rewrite (paint_same m rd ul _ _ (fun x Hx => Sub x ltac:(lia)) Hul), (paint_same m rd ur _ _ (fun x Hx => Sub x ltac:(lia)) Hur).
    destruct dl; cbn [rep paint] in *; destruct Hp as (_ & _ & _ & _ & J1 & J2);
      rewrite (paint_same m rd s _ _ (fun x Hx => Sub x ltac:(lia)) ltac:(eassumption)), (paint_same m rd sib _ _ (fun x Hx => Sub x ltac:(lia)) ltac:(eassumption)); congruence. }
  rewrite Et in Gp. apply Gp; [|unfold rd; snq; exact N0].
  intros x Hx. unfold rd. rewrite !set_neq; auto; intros ->; bad U.
Qed.

Lemma ins_left_black m k2 dl p sib g u l n r q0 :
  good m (F dl true p sib :: F true false g u :: k2) (T true l n r) n q0 -> rootc u = false ->
  exists m' n' A o B, ins_left m n = (m', n') /\ par m' n' = o /\ red m' o = false /\
    good m' k2 (T false A o (T true B g u)) o (par m' o) /\
    (if dl then A = T true l n r /\ o = p /\ B = sib else A = T true sib p l /\ o = n /\ B = r).
Proof.
  intros G Cu. pose proof (good_parent _ _ _ _ _ _ _ _ G) as (_ & Pn & Cn & Hn0).
  assert (Q0 : q0 = p) by (destruct G as ((-> & _) & _); reflexivity). rewrite Q0 in G, Pn. clear Q0.
  destruct (good_up _ _ _ _ _ _ G (or_introl Pn)) as [_ G1]. cbn [fa] in G1.
  assert (Pp : par m p = g) by (destruct G as (R & _); cbn [repc fa] in R; tauto). rewrite Pp in G1.
  pose proof G as (_ & _ & U & N0). neq U p g. neq U p n. neq U g n.
  assert (Hp0 : p <> 0 /\ g <> 0) by (destruct G as (R & _); cbn [repc fa] in R; tauto). destruct Hp0 as [Hp0 Hg0].
  assert (Cu' : red m (rgt m g) = false).
  { destruct G as (R & _). cbn [repc fa fl fs] in R. destruct R as (_ & _ & _ & _ & _ & _ & _ & [_ R] & _). rewrite (rep_rootc _ _ _ _ R N0). exact Cu. }
  unfold ins_left. rewrite Pn, Pp, Cu'.
  assert (D : exists m1 n1 A o B, (if n =? rgt m p then (left_rotate m p, p) else (m, n)) = (m1, n1) /\
     good m1 (F true false g u :: k2) (T true A o B) o g /\ par m1 n1 = o /\ (exists x y, A = T true x n1 y) /\ red m1 = red m /\
     (if dl then A = T true l n r /\ o = p /\ B = sib else A = T true sib p l /\ o = n /\ B = r)).
  { unfold fill in G1. cbn [fl fc fa fs] in G1. destruct dl.
    - assert (X : rgt m p <> n).
      { intros X. destruct G1 as (_ & H1 & _). cbn [rep] in H1. destruct H1 as (_ & _ & _ & _ & _ & H1). rewrite X in H1.
        pose proof (rep_root _ _ _ _ H1 Hn0). bad U. }
      rewrite (proj2 (N.eqb_neq _ _) (not_eq_sym X)). exists m, n, (T true l n r), p, sib. repeat (split; [first [reflexivity|assumption]|]).
      split; [eauto|]. auto.
    - assert (X : rgt m p = n) by (destruct G1 as (_ & H1 & _); cbn [rep] in H1; tauto).
      rewrite X, N.eqb_refl. destruct (left_rotate_ok _ _ _ _ _ _ _ _ _ _ G1) as (G2 & Er & _).
      exists (left_rotate m p), p, (T true sib p l), n, r. split; [reflexivity|]. split; [exact G2|]. split; [|split; [eauto|auto]].
      destruct G2 as (_ & H2 & _). cbn [rep] in H2. tauto. }
  destruct D as (m1 & n1 & A & o & B & -> & G2 & P1 & I1 & Er & Sh).
  assert (Po : par m1 o = g) by (apply (good_parent _ _ _ _ _ _ _ _ G2)).
  rewrite P1. cbn [par set_red]. rewrite P1, Po.
  set (rd := set (set (red m1) o false) g true). change (set_red (set_red m1 o false) g true) with (mkM (par m1) (lft m1) (rgt m1) rd (root m1)).
  assert (Ho0 : o <> 0) by (destruct dl; intuition congruence). assert (Ho : o <> g) by (destruct dl; intuition congruence).
  destruct (good_up _ _ _ _ _ _ G2 (or_introl Po)) as [_ G3]. cbn [fa] in G3. unfold fill in G3. cbn [fl fc fa fs] in G3.
  pose proof G3 as (_ & H3 & U3 & N3).
  assert (Gp := good_paint m1 rd k2 _ _ _ G3).
  match type of Gp with _ -> _ -> good _ _ ?t _ _ => assert (Et : t = T true (T false A o B) g u) end.
  { assert (Sub : forall x, (0 < cnt x A + cnt x B + cnt x u)%nat -> rd x = red m1 x).
    { intros x Hx. unfold rd. rewrite !set_neq; auto; intros ->; bad U3. }
    cbn [paint rep] in *. destruct H3 as (_ & _ & _ & _ & (_ & _ & _ & _ & HA & HB) & Hu).
    rewrite (paint_same m1 rd A _ _ (fun x Hx => Sub x ltac:(lia)) HA), (paint_same m1 rd B _ _ (fun x Hx => Sub x ltac:(lia)) HB),
      (paint_same m1 rd u _ _ (fun x Hx => Sub x ltac:(lia)) Hu).
    replace (rd g) with true by (unfold rd; snq; reflexivity). replace (rd o) with false by (unfold rd; snq; reflexivity). reflexivity. }
  rewrite Et in Gp. clear Et.
  assert (G4 : good (mkM (par m1) (lft m1) (rgt m1) rd (root m1)) k2 (T true (T false A o B) g u) g (par m1 g)).
  { apply Gp; [|unfold rd; snq; exact N3]. intros x Hx. unfold rd. rewrite !set_neq; auto; intros ->; bad U3. }
  clear Gp. destruct (right_rotate_ok _ _ _ _ _ _ _ _ _ _ G4) as (G5 & Er5 & _).
  eexists _, n1, A, o, B. split; [reflexivity|].
  pose proof (good_parent _ _ _ _ _ _ _ _ G5) as (_ & P5 & C5 & _).
  split; [|split; [exact C5|split; [rewrite P5; exact G5|exact Sh]]].
  destruct G5 as (_ & H5 & _). destruct I1 as (x & y & ->). cbn [rep] in H5. tauto.
Qed.

Lemma mirror_fill f t : mirror (fill f t) = fill (mirrorf f) (mirror t).
Proof. destruct f as [d c a s]. unfold fill, mirrorf. cbn [fl fc fa fs]. destruct d; reflexivity. Qed.

(** One turn: either the red node moves up, or the tree is in order. *)
Definition turn (m : links) (k2 : ctx) (h : nat) (g : N) (ids : list N) (res : links * N) : Prop :=
  let (m', n') := res in
  exists t', inorder t' = ids /\
    ((n' = g /\ good m' k2 t' g (par m' g) /\ rbt true (S h) t') \/
     (exists o, par m' n' = o /\ red m' o = false /\ good m' k2 t' o (par m' o) /\ rbt false (S h) t')).

Lemma ins_left_turn m k2 dl p sib g u l n r q0 h pc :
  good m (F dl true p sib :: F true false g u :: k2) (T true l n r) n q0 -> rbt true h (T true l n r) ->
  rbc (F dl true p sib :: F true false g u :: k2) pc h ->
  turn m k2 h g (inorder (fill (F true false g u) (fill (F dl true p sib) (T true l n r)))) (ins_left m n).
Proof.
  intros G Hs K. inversion K as [| |? ? ? ? ? ? Hsib Hf K1]; subst. inversion K1 as [|? ? ? cu ? ? pc2 Hu K2|]; subst.
  inversion Hs as [| |? ? ? ? Hl Hr]; subst.
  destruct cu.
  - inversion Hu as [| |? ul ua ur Hul Hur]; subst.
    destruct (good_parent _ _ _ _ _ _ _ _ G) as (_ & Pn & Cn & _).
    assert (Q0 : q0 = p) by (destruct G as ((-> & _) & _); reflexivity). rewrite Q0 in Pn.
    destruct (ins_left_red _ _ _ _ _ _ _ _ _ _ _ _ G Pn Cn) as (m' & -> & Pg & G').
    eexists. split; [|left; split; [reflexivity|split; [exact G'|]]].
    + unfold fill. cbn [fl fc fa fs]. destruct dl; reflexivity.
    + constructor; [|econstructor; eauto]. unfold fill. cbn [fl fc fa fs]. destruct dl; econstructor; eauto.
  - destruct (ins_left_black _ _ _ _ _ _ _ _ _ _ _ G (rbt_rootc _ _ _ Hu)) as (m' & n' & A & o & B & -> & P' & C' & G' & Sh).
    eexists. split; [|right; exists o; split; [exact P'|split; [exact C'|split; [exact G'|]]]].
    + unfold fill. cbn [fl fc fa fs]. destruct dl; destruct Sh as (-> & -> & ->); cbn [inorder]; rewrite <- ?app_assoc; cbn [app]; rewrite <- ?app_assoc; reflexivity.
    + destruct dl; destruct Sh as (-> & -> & ->); econstructor; econstructor; eauto.
Qed.
Lemma ins_right_turn m k2 dl p sib g u l n r q0 h pc :
  good m (F dl true p sib :: F false false g u :: k2) (T true l n r) n q0 -> rbt true h (T true l n r) ->
  rbc (F dl true p sib :: F false false g u :: k2) pc h ->
  turn m k2 h g (inorder (fill (F false false g u) (fill (F dl true p sib) (T true l n r)))) (ins_right m n).
Proof.
  intros G Hs K. apply good_swap in G. apply rbt_mirror in Hs. apply rbc_mirror in K.
  pose proof (ins_left_turn _ _ _ _ _ _ _ _ _ _ _ _ _ G Hs K) as H. fold (mirrorc k2) in H.
  unfold ins_right. destruct (ins_left (swap m) n) as [m' n']. cbn [fst snd]. destruct H as (t' & Hi & H). exists (mirror t').
  split.
  - rewrite inorder_mirror, Hi, <- inorder_mirror. f_equal. rewrite !mirror_fill. unfold mirrorf. cbn [fl fc fa fs mirror negb].
    rewrite negb_involutive, !mirror_mirror. reflexivity.
  - destruct H as [(-> & G' & H')|(o & P' & C' & G' & H')].
    + left. split; [reflexivity|]. split; [|apply rbt_mirror; exact H']. apply good_swap in G'. rewrite mirrorc_mirrorc in G'. exact G'.
    + right. exists o. split; [exact P'|]. split; [exact C'|]. split; [|apply rbt_mirror; exact H'].
      apply good_swap in G'. rewrite mirrorc_mirrorc in G'. exact G'.
Qed.

Lemma finish m t c h : whole m t -> rbt c h t -> exists t', whole (set_red m (root m) false) t' /\ inorder t' = inorder t /\ exists h', rbt false h' t'.
Proof.
  intros G H. assert (Gp := good_paint m (set (red m) (root m) false) [] t (root m) 0 G).
  pose proof G as (_ & Hr & U & N0). exists (paint (set (red m) (root m) false) t).
  split; [apply Gp; [intros x; cbn [cntc]; lia|]|].
  { unfold set. destruct (0 =? root m); auto. }
  split; [clear; induction t; cbn [paint inorder]; congruence|].
  destruct t as [|c0 l a r]; [exists h; inversion H; constructor|]. cbn [rep] in Hr. destruct Hr as (Ea & _ & _ & _ & Hl & Hr).
  cbn [paint]. rewrite Ea, set_eq. assert (S : forall x, (0 < cnt x l + cnt x r)%nat -> set (red m) a false x = red m x).
  { intros x Hx. apply set_neq. intros ->. uq U a. lia. }
  rewrite (paint_same m _ l _ _ (fun x Hx => S x ltac:(lia)) Hl), (paint_same m _ r _ _ (fun x Hx => S x ltac:(lia)) Hr).
  apply (black_root c0 h). rewrite <- (rbt_rootc _ _ _ H) in H. exact H.
Qed.

Lemma rbc_red_inv k h : rbc k true h -> exists d p sib d2 g u k2 cu pc2, k = F d true p sib :: F d2 false g u :: k2 /\
  rbt false h sib /\ rbt cu h u /\ rbc k2 pc2 (S h).
Proof.
  intros K. inversion K as [| |d p sib ? f k2 Hsib Hf2 K1]; subst. destruct f as [d2 c2 g u]. cbn [fc] in Hf2. subst c2.
  inversion K1; subst. repeat eexists; eauto.
Qed.

Lemma insert_fixup_ok : forall fuel m k l n r q h pc, (length k + 2 <= fuel)%nat -> good m k (T true l n r) n q ->
  rbt true h (T true l n r) -> rbc k pc h ->
  exists m' t', insert_fixup fuel m n = Some m' /\ whole m' t' /\ inorder t' = inorder (plug k (T true l n r)) /\ exists h', rbt false h' t'.
Proof.
  induction fuel as [fuel IH] using (well_founded_induction lt_wf). intros m k l n r q h pc Hf G Hs K.
  destruct fuel as [|fuel]; [lia|]. rewrite insert_fixup_S.
  destruct (good_parent _ _ _ _ _ _ _ _ G) as (_ & Pn & Cn & Hn0). rewrite Pn.
  pose proof G as (R & _ & U & N0).
  destruct pc.
  2: { assert (C : red m q = false).
    { inversion K; subst; cbn [repc fa fc] in R; [destruct R as [_ ->]; exact N0|]. destruct R as (-> & _ & R & _). exact R. }
    rewrite C. pose proof (good_whole _ _ _ _ _ G (or_introl Pn)) as W.
    destruct (plug_rbt _ _ _ _ _ K Hs eq_refl) as (c' & h' & HW).
    destruct (finish _ _ _ _ W HW) as (t' & W' & I' & B'). eauto 8. }
  destruct (rbc_red_inv _ _ K) as (d & p & sib & d2 & g & u & k2 & cu & pc2 & -> & Hsib & Hu & K2).
  cbn [repc fa fc fl fs] in R. destruct R as (Hq & Hp0 & Cp & Hp & Hg & Hg0 & Cg & Hgs & Hk2). rewrite Hq, Cp. rewrite Hg.
  assert (T' : turn m k2 h g (inorder (fill (F d2 false g u) (fill (F d true p sib) (T true l n r))))
    (if p =? lft m g then ins_left m n else ins_right m n)).
  { destruct d2.
    - destruct Hgs as [-> _]. rewrite N.eqb_refl. eapply ins_left_turn; eauto.
    - assert (X : p <> lft m g).
      { destruct Hgs as [_ Hgs]. intros X. rewrite <- X in Hgs. pose proof (rep_root _ _ _ _ Hgs Hp0). uq U p. lia. }
      rewrite (proj2 (N.eqb_neq _ _) X). eapply ins_right_turn; eauto. }
  replace (if p =? lft m g then let (m', n') := ins_left m n in insert_fixup fuel m' n' else let (m', n') := ins_right m n in insert_fixup fuel m' n')
    with (let (m', n') := (if p =? lft m g then ins_left m n else ins_right m n) in insert_fixup fuel m' n') by (destruct (p =? lft m g); reflexivity).
  destruct (if p =? lft m g then ins_left m n else ins_right m n) as [m' n']. cbn [turn] in T'.
  destruct T' as (t' & Hi & [(-> & G' & H')|(o & P' & C' & G' & H')]).
  - inversion H' as [| |? l' a' r' Hl' Hr' X1 X2 X3]. subst t'. destruct (good_parent _ _ _ _ _ _ _ _ G') as (Eg & _). subst a'.
    destruct (IH fuel ltac:(lia) m' k2 l' g r' _ (S h) pc2 ltac:(cbn [length] in Hf; lia) G' H' K2) as (m2 & t2 & E2 & W2 & I2 & B2).
    exists m2, t2. split; [exact E2|]. split; [exact W2|]. split; [|exact B2]. rewrite I2. cbn [plug]. rewrite !inorder_plug, Hi. reflexivity.
  - destruct fuel as [|fuel]; [cbn [length] in Hf; lia|]. rewrite insert_fixup_S, P', C'.
    pose proof (good_whole _ _ _ _ _ G' (or_introl eq_refl)) as W.
    destruct (plug_rbt _ _ _ _ _ K2 H' eq_refl) as (c' & h' & HW).
    destruct (finish _ _ _ _ W HW) as (t2 & W' & I' & B'). exists (set_red m' (root m') false), t2. split; [reflexivity|].
    split; [exact W'|]. split; [|exact B']. rewrite I'. cbn [plug]. rewrite !inorder_plug, Hi. reflexivity.
Qed.

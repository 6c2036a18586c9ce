Require Import List Arith NArith ZArith Bool Lia.
Require Import ZifyBool ZifyNat ZifyN.
Require Import Verif.Base Verif.ChainModel Verif.RbModel Verif.RbSpec Verif.RbLinkProofs Verif.RbInsertProofs.
Import ListNotations.
Open Scope N_scope.

Lemma rep_ptr m m' q q' p p' t : rep m q p t -> rep m' q' p' t -> p = p'.
Proof. destruct t; cbn [rep]; [congruence|]. intros (-> & _) (-> & _). reflexivity. Qed.

Definition recol (m : links) (rd : N -> bool) : links := mkM (par m) (lft m) (rgt m) rd (root m).

Ltac conj H := match type of H with _ /\ _ => let H1 := fresh "H" in let H2 := fresh "H" in destruct H as [H1 H2]; conj H1; conj H2 | _ => idtac end.
Ltac pt m rd U := repeat match goal with H : rep m _ _ ?s |- context [paint rd ?s] =>
  rewrite (paint_same m rd s _ _ ltac:(let x := fresh "x" in let Hx := fresh "Hx" in intros x Hx; unfold rd; rewrite !set_neq; [reflexivity|..]; (intros ->; bad U)) H) end.
(** Prove that recolouring a few named nodes of the focused tree gives the named tree. *)
Ltac paints G rd := let U := fresh "U" in let N0 := fresh "N0" in let R := fresh "R" in let HH := fresh "HH" in
  pose proof G as (R & HH & U & N0);
  match goal with |- good _ _ ?tgt _ _ => match type of G with good ?m ?k ?t _ _ =>
    replace tgt with (paint rd t);
    [change (good (recol m rd) k (paint rd t)) with (good (mkM (par m) (lft m) (rgt m) rd (root m)) k (paint rd t));
     apply good_paint; [exact G|let x := fresh "z" in let Hx := fresh "Hz" in intros x Hx; cbn [cntc fa fs] in Hx; unfold rd; rewrite !set_neq; [reflexivity|..]; (intros ->; bad U)|unfold rd; rewrite ?set_neq by auto; exact N0]
    |cbn [paint rep] in *; conj HH; pt m rd U; unfold rd; snq; try reflexivity]
  end end.

(** Case 1: a red sibling. *)
Lemma del_case1 m k2 p wl w wr s n : good m (F true false p (T true wl w wr) :: k2) s n p -> par m n = p ->
  let m1 := left_rotate (set_red (set_red m w false) p true) p in
  good m1 (F true true p wl :: F true false w wr :: k2) s n p /\ par m1 n = p.
Proof.
  intros G Pn. destruct (good_up _ _ _ _ _ _ G (or_introl Pn)) as [_ G1]. cbn [fa] in G1. unfold fill in G1. cbn [fl fc fa fs] in G1.
  pose proof G as (R & Hs & U & N0). neq U p w.
  assert (Z : p <> 0 /\ w <> 0) by (destruct G1 as (_ & H & _); cbn [rep] in H; tauto). destruct Z as [Zp Zw].
  set (rd := set (set (red m) w false) p true).
  assert (G2 : good (recol m rd) k2 (T true s p (T false wl w wr)) p (par m p)) by (paints G1 rd).
  destruct (left_rotate_ok _ _ _ _ _ _ _ _ _ _ G2) as (G3 & _ & P0).
  change (set_red (set_red m w false) p true) with (recol m rd). set (m1 := left_rotate (recol m rd) p) in *. cbv zeta.
  apply good_down_l in G3. pose proof (good_parent _ _ _ _ _ _ _ _ G3) as (Ep & _). rewrite Ep in G3. apply good_down_l in G3.
  assert (En : lft m1 p = n) by (destruct G3 as (_ & H3 & _); eapply rep_ptr; eassumption). rewrite En in G3. split; [exact G3|].
  destruct s as [|c l a r].
  - cbn [rep] in Hs. subst n. rewrite P0. exact Pn.
  - destruct (good_parent _ _ _ _ _ _ _ _ G3) as (-> & P3 & _). exact P3.
Qed.

(** Case 2: a black sibling with black children. *)
Lemma del_case2 m k2 c p wl w wr s n : good m (F true c p (T false wl w wr) :: k2) s n p -> par m n = p ->
  good (set_red m w true) k2 (T c s p (T true wl w wr)) p (par m p).
Proof.
  intros G Pn. destruct (good_up _ _ _ _ _ _ G (or_introl Pn)) as [_ G1]. cbn [fa] in G1. unfold fill in G1. cbn [fl fc fa fs] in G1.
  pose proof G as (R & Hs & U & N0). neq U p w.
  assert (Z : p <> 0 /\ w <> 0) by (destruct G1 as (_ & H & _); cbn [rep] in H; tauto). destruct Z as [Zp Zw].
  set (rd := set (red m) w true). change (set_red m w true) with (recol m rd). paints G1 rd. congruence.
Qed.

(** Case 3: the outer child of the sibling is black, the inner one red. *)
Lemma del_case3 m k2 c p x v y w wr s n : good m (F true c p (T false (T true x v y) w wr) :: k2) s n p -> par m n = p ->
  let m1 := right_rotate (set_red (set_red m v false) w true) w in
  good m1 (F true c p (T false x v (T true y w wr)) :: k2) s n p /\ par m1 n = p.
Proof.
  intros G Pn. destruct (good_up _ _ _ _ _ _ G (or_introl Pn)) as [_ G1]. cbn [fa] in G1. unfold fill in G1. cbn [fl fc fa fs] in G1.
  pose proof G as (R & Hs & U & N0). neq U p w. neq U v w. neq U p v.
  assert (Z : p <> 0 /\ w <> 0 /\ v <> 0) by (destruct G1 as (_ & H & _); cbn [rep] in H; tauto). destruct Z as (Zp & Zw & Zv).
  apply good_down_r in G1. pose proof (good_parent _ _ _ _ _ _ _ _ G1) as (Ew & _). rewrite Ew in G1.
  set (rd := set (set (red m) v false) w true).
  assert (G2 : good (recol m rd) (F false c p s :: k2) (T true (T false x v y) w wr) w p) by (paints G1 rd).
  destruct (right_rotate_ok _ _ _ _ _ _ _ _ _ _ G2) as (G3 & _ & P0).
  change (set_red (set_red m v false) w true) with (recol m rd). set (m1 := right_rotate (recol m rd) w) in *. cbv zeta.
  pose proof (good_parent _ _ _ _ _ _ _ _ G3) as (_ & P3 & _).
  destruct (good_up _ _ _ _ _ _ G3 (or_introl P3)) as [_ G4]. cbn [fa] in G4. unfold fill in G4. cbn [fl fc fa fs] in G4.
  apply good_down_l in G4. assert (En : lft m1 p = n) by (destruct G4 as (_ & H4 & _); eapply rep_ptr; eassumption). rewrite En in G4.
  split; [exact G4|]. destruct s as [|cs l a r].
  - cbn [rep] in Hs. subst n. rewrite P0. exact Pn.
  - destruct (good_parent _ _ _ _ _ _ _ _ G4) as (-> & P4 & _). exact P4.
Qed.

(** Case 4: the outer child of the sibling is red. *)
Lemma del_case4 m k2 c p x v y w z s n : good m (F true c p (T false x v (T true y w z)) :: k2) s n p -> par m n = p ->
  let m1 := left_rotate (set_red (set_red (set_red m v c) p false) w false) p in
  good m1 k2 (T c (T false s p x) v (T false y w z)) v (par m1 v).
Proof.
  intros G Pn. destruct (good_up _ _ _ _ _ _ G (or_introl Pn)) as [_ G1]. cbn [fa] in G1. unfold fill in G1. cbn [fl fc fa fs] in G1.
  pose proof G as (R & Hs & U & N0). neq U p w. neq U v w. neq U p v.
  assert (Z : p <> 0 /\ w <> 0 /\ v <> 0) by (destruct G1 as (_ & H & _); cbn [rep] in H; tauto). destruct Z as (Zp & Zw & Zv).
  set (rd := set (set (set (red m) v c) p false) w false).
  assert (G2 : good (recol m rd) k2 (T false s p (T c x v (T false y w z))) p (par m p)) by (paints G1 rd).
  destruct (left_rotate_ok _ _ _ _ _ _ _ _ _ _ G2) as (G3 & _ & P0).
  change (set_red (set_red (set_red m v c) p false) w false) with (recol m rd). set (m1 := left_rotate (recol m rd) p) in *. cbv zeta.
  destruct (good_parent _ _ _ _ _ _ _ _ G3) as (_ & P3 & _). rewrite P3. exact G3.
Qed.

Local Ltac reassoc := repeat (rewrite <- app_assoc || cbn [app]); reflexivity.
Definition del_left (m : links) (n : N) : links * N :=
  let '(m, tmp) := red_sibling_l m n in
  if negb (red m (lft m tmp)) && negb (red m (rgt m tmp)) then (set_red m tmp true, par m n)
  else let '(m, tmp) := inner_red_l m n tmp in let m := outer_red_l m n tmp in (m, root m).
Definition del_right (m : links) (n : N) : links * N :=
  let r := del_left (swap m) n in (swap (fst r), snd r).

Lemma swap_red m a b : swap (set_red m a b) = set_red (swap m) a b.
Proof. reflexivity. Qed.
Lemma left_rotate_swap m n : left_rotate m n = swap (right_rotate (swap m) n).
Proof. rewrite right_rotate_swap, !swap_swap. reflexivity. Qed.
Lemma red_sibling_swap m n : red_sibling_r m n = let (m', t) := red_sibling_l (swap m) n in (swap m', t).
Proof.
  unfold red_sibling_r, red_sibling_l. cbv zeta. rewrite right_rotate_swap.
  change (red (swap m) (rgt (swap m) (par (swap m) n))) with (red m (lft m (par m n))). destruct (red m (lft m (par m n))); [reflexivity|].
  rewrite swap_swap. reflexivity.
Qed.
Lemma inner_red_swap m n t : inner_red_r m n t = let (m', t') := inner_red_l (swap m) n t in (swap m', t').
Proof.
  unfold inner_red_r, inner_red_l. cbv zeta. rewrite left_rotate_swap.
  change (red (swap m) (rgt (swap m) t)) with (red m (lft m t)). destruct (negb (red m (lft m t))); [reflexivity|].
  rewrite swap_swap. reflexivity.
Qed.
Lemma outer_red_swap m n t : outer_red_r m n t = swap (outer_red_l (swap m) n t).
Proof. unfold outer_red_r, outer_red_l. cbv zeta. rewrite right_rotate_swap. reflexivity. Qed.

Lemma delete_fixup_S f m n : delete_fixup (S f) m n =
  if negb (n =? root m) && negb (red m n) then
    if n =? lft m (par m n) then let (m', n') := del_left m n in delete_fixup f m' n'
    else let (m', n') := del_right m n in delete_fixup f m' n'
  else Some (set_red m n false).
Proof.
  cbn [delete_fixup]. destruct (negb (n =? root m) && negb (red m n)); [|reflexivity]. destruct (n =? lft m (par m n)).
  - unfold del_left. destruct (red_sibling_l m n) as [M t]. destruct (negb (red M (lft M t)) && negb (red M (rgt M t))); [reflexivity|].
    destruct (inner_red_l M n t) as [M2 t2]. reflexivity.
  - unfold del_right, del_left. rewrite red_sibling_swap. destruct (red_sibling_l (swap m) n) as [M t].
    change (red (swap M)) with (red M). change (rgt (swap M)) with (lft M). change (lft (swap M)) with (rgt M).
    destruct (negb (red M (lft M t)) && negb (red M (rgt M t))); [reflexivity|].
    rewrite inner_red_swap, swap_swap. destruct (inner_red_l M n t) as [M2 t2]. rewrite outer_red_swap, swap_swap. reflexivity.
Qed.

(** ** The loop *)
(** A subtree that lacks one black node, or has a red root to blacken. *)
Definition lacking (t : tree) (H : nat) : Prop :=
  (exists l a r, t = T true l a r /\ rbt false H (T false l a r)) \/ (exists h, H = S h /\ rbt false h t).
Definition dturn (P : ctx -> tree -> Prop) (ids : list N) (res : links * N) : Prop :=
  let (m', n') := res in
  (exists k' t' pc' H', good m' k' t' n' (par m' n') /\ rbc k' pc' H' /\ lacking t' H' /\ inorder (plug k' t') = ids /\
P k' t') \/
  (exists t' h', whole m' t' /\ n' = root m' /\ rbt false h' t' /\ inorder t' = ids).

Lemma plug_black : forall k t c h pc, rbc k pc h -> rbt c h t -> c && pc = false -> (k = [] -> c = false) -> exists h', rbt false h' (plug k t).
Proof.
  induction k as [|f k IH]; intros t c h pc K H Hc Hk; cbn [plug]; [rewrite (Hk eq_refl) in H; eauto|].
  destruct (fill_rbt _ _ _ _ _ _ K H Hc) as (c' & h' & pc' & H' & K' & Hc' & Hf). eapply IH; eauto.
  intros ->. apply Hf. inversion K; subst; reflexivity.
Qed.
Lemma black_node h t : rbt false (S h) t -> exists l a r c1 c2, t = T false l a r /\ rbt c1 h l /\ rbt c2 h r.
Proof. inversion 1; subst; eauto 10. Qed.
Lemma red_child m q p t c h : rep m q p t -> red m 0 = false -> rbt c h t -> red m p = c.
Proof. intros H N0 B. rewrite (rep_rootc _ _ _ _ H N0). eapply rbt_rootc; eauto. Qed.

(** Black sibling. *)
Lemma del_black m k2 c p wl w wr s n h c1 c2 pc : good m (F true c p (T false wl w wr) :: k2) s n p -> par m n = p -> red m p = c ->
  rbt false h s -> rbt c1 h wl -> rbt c2 h wr -> rbc (F true c p (T false wl w wr) :: k2) pc (S h) ->
  dturn (fun k' t' => k' = k2 /\ rootc t' = c) (inorder (plug (F true c p (T false wl w wr) :: k2) s))
    (if negb (red m (lft m w)) && negb (red m (rgt m w)) then (set_red m w true, par m n)
     else let '(m, tmp) := inner_red_l m n w in let m := outer_red_l m n tmp in (m, root m)).
Proof.
  intros G Pn Cp Hs Hl Hr K. pose proof G as (R & Hn & U & N0). cbn [repc fa fc fl fs rep] in R.
  destruct R as (_ & Zp & _ & (Ln & Rw & Zw & Pw & Cw & Rl & Rr) & Rk).
  rewrite (red_child _ _ _ _ _ _ Rl N0 Hl), (red_child _ _ _ _ _ _ Rr N0 Hr).
  assert (KK : exists pc2, rbc k2 pc2 (if c then S h else S (S h)) /\ c && pc2 = false /\ (k2 = [] -> c = false)).
  { inversion K; subst; eauto. exists false. split; [assumption|]. split; [reflexivity|discriminate]. }
  destruct KK as (pc2 & K2 & Cc & Ck).
  destruct c1, c2; cbn [negb andb].
  - (* both red *) unfold inner_red_l. rewrite (red_child _ _ _ _ _ _ Rr N0 Hr). cbn [negb]. unfold outer_red_l. cbv zeta.
    inversion Hr as [| |? y v z Hy Hz X1 X2 X3]. subst wr.
    assert (Ev : rgt m w = v) by (cbn [rep] in Rr; tauto).
    cbn [par rgt set_red]. rewrite Pn, Cp, Ev.
    pose proof (del_case4 _ _ _ _ _ _ _ _ _ _ _ G Pn) as D. cbv zeta in D.
    right. pose proof (good_whole _ _ _ _ _ D (or_introl eq_refl)) as W.
    assert (B : rbt c (if c then S h else S (S h)) (T c (T false s p wl) w (T false y v z))) by (destruct c; repeat (econstructor; eauto)).
    destruct (plug_black _ _ _ _ _ K2 B Cc Ck) as (h' & B'). eexists _, h'. split; [exact W|]. split; [reflexivity|]. split; [exact B'|].
    cbn [plug]. rewrite !inorder_plug. unfold fill. cbn [fl fc fa fs inorder]. reassoc.
  - (* inner red *) unfold inner_red_l. rewrite (red_child _ _ _ _ _ _ Rr N0 Hr). cbn [negb]. cbv zeta.
    inversion Hl as [| |? x v y Hx Hy X1 X2 X3]. subst wl.
    assert (Ev : lft m w = v) by (cbn [rep] in Rl; tauto). rewrite Ev.
    destruct (del_case3 _ _ _ _ _ _ _ _ _ _ _ G Pn) as [G1 P1]. cbv zeta in G1, P1.
    set (m1 := right_rotate (set_red (set_red m v false) w true) w) in *.
    assert (E1 : rgt m1 (par m1 n) = v) by (rewrite P1; destruct G1 as (R1 & _); cbn [repc fa fl fs rep] in R1; tauto). rewrite E1.
    unfold outer_red_l. cbv zeta. cbn [par rgt set_red]. rewrite P1.
    assert (E2 : rgt m1 v = w) by (destruct G1 as (R1 & _); cbn [repc fa fl fs rep] in R1; tauto).
    assert (E3 : red m1 p = c) by (destruct G1 as (R1 & _); cbn [repc fa fc fl fs rep] in R1; tauto). rewrite E2, E3.
    pose proof (del_case4 _ _ _ _ _ _ _ _ _ _ _ G1 P1) as D. cbv zeta in D.
    right. pose proof (good_whole _ _ _ _ _ D (or_introl eq_refl)) as W.
    assert (B : rbt c (if c then S h else S (S h)) (T c (T false s p x) v (T false y w wr))) by (destruct c; repeat (econstructor; eauto)).
    destruct (plug_black _ _ _ _ _ K2 B Cc Ck) as (h' & B'). eexists _, h'. split; [exact W|]. split; [reflexivity|]. split; [exact B'|].
    cbn [plug]. rewrite !inorder_plug. unfold fill. cbn [fl fc fa fs inorder]. reassoc.
  - (* outer red *) unfold inner_red_l. rewrite (red_child _ _ _ _ _ _ Rr N0 Hr). cbn [negb]. unfold outer_red_l. cbv zeta.
    inversion Hr as [| |? y v z Hy Hz X1 X2 X3]. subst wr.
    assert (Ev : rgt m w = v) by (cbn [rep] in Rr; tauto).
    cbn [par rgt set_red]. rewrite Pn, Cp, Ev.
    pose proof (del_case4 _ _ _ _ _ _ _ _ _ _ _ G Pn) as D. cbv zeta in D.
    right. pose proof (good_whole _ _ _ _ _ D (or_introl eq_refl)) as W.
    assert (B : rbt c (if c then S h else S (S h)) (T c (T false s p wl) w (T false y v z))) by (destruct c; repeat (econstructor; eauto)).
    destruct (plug_black _ _ _ _ _ K2 B Cc Ck) as (h' & B'). eexists _, h'. split; [exact W|]. split; [reflexivity|]. split; [exact B'|].
    cbn [plug]. rewrite !inorder_plug. unfold fill. cbn [fl fc fa fs inorder]. reassoc.
  - (* both black *) left. rewrite Pn. exists k2, (T c s p (T true wl w wr)), pc2, (if c then S h else S (S h)).
    split; [exact (del_case2 _ _ _ _ _ _ _ _ _ G Pn)|]. split; [exact K2|]. split; [|split; [|auto]].
    2:{ cbn [plug]. rewrite !inorder_plug. unfold fill. cbn [fl fc fa fs inorder]. reassoc. }
    destruct c.
    + left. exists s, p, (T true wl w wr). split; [reflexivity|]. repeat (econstructor; eauto).
    + right. exists (S h). split; [reflexivity|]. repeat (econstructor; eauto).
Qed.

Lemma del_left_turn m k2 c p w0 s n h pc : good m (F true c p w0 :: k2) s n p -> par m n = p ->
  rbt false h s -> rbc (F true c p w0 :: k2) pc (S h) ->
  dturn (fun k' t' => k' = k2 \/ rootc t' = true) (inorder (plug (F true c p w0 :: k2) s)) (del_left m n).
Proof.
  intros G Pn Hs K. pose proof G as (R & Hn & U & N0). cbn [repc fa fc fl fs] in R.
  destruct R as (_ & Zp & Cp & (Ln & Rw) & Rk). unfold del_left, red_sibling_l. cbv zeta. rewrite Pn.
  assert (W : exists cw, rbt cw (S h) w0) by (inversion K; subst; eauto). destruct W as (cw & W).
  rewrite (red_child _ _ _ _ _ _ Rw N0 W). destruct cw.
  - inversion W as [| |? wl w wr Hwl Hwr X1 X2 X3]. subst w0.
    assert (Ew : rgt m p = w) by (cbn [rep] in Rw; tauto). rewrite Ew. cbn [par set_red]. rewrite Pn.
    assert (Ec : c = false) by (inversion K; subst; auto; match goal with H : rbt false _ (T true _ _ _) |- _ => inversion H end). clear Cp. subst c.
    destruct (del_case1 _ _ _ _ _ _ _ _ G Pn) as [G1 P1]. cbv zeta in G1, P1.
    set (m1 := left_rotate (set_red (set_red m w false) p true) p) in *. rewrite P1.
    destruct (black_node _ _ Hwl) as (x & v & y & c1 & c2 & -> & Hx & Hy).
    assert (Ev : rgt m1 p = v) by (destruct G1 as (R1 & _); cbn [repc fa fl fs rep] in R1; tauto).
    assert (Cp1 : red m1 p = true) by (destruct G1 as (R1 & _); cbn [repc fa fc fl fs rep] in R1; tauto).
    assert (K1 : rbc (F true true p (T false x v y) :: F true false w wr :: k2) true (S h)).
    { inversion K; subst. constructor; auto. econstructor; eauto. }
    pose proof (del_black _ _ _ _ _ _ _ _ _ _ _ _ _ G1 P1 Cp1 Hs Hx Hy K1) as D. rewrite P1 in D. rewrite Ev.
    assert (I : inorder (plug (F true true p (T false x v y) :: F true false w wr :: k2) s) =
                inorder (plug (F true false p (T true (T false x v y) w wr) :: k2) s)).
    { cbn [plug]. rewrite !inorder_plug. unfold fill. cbn [fl fc fa fs inorder]. reassoc. }
    rewrite I in D. revert D.
    match goal with |- dturn _ _ ?r -> dturn _ _ ?r' => change r' with r; destruct r as [m' n'] end. cbn [dturn].
    intros [(k' & t' & pc' & H' & G' & K' & L' & I' & X)|D]; [|right; exact D].
    left. exists k', t', pc', H'. repeat (split; [assumption|]). right. apply X.
  - destruct (black_node _ _ W) as (wl & w & wr & c1 & c2 & -> & Hwl & Hwr).
    assert (Ew : rgt m p = w) by (cbn [rep] in Rw; tauto). rewrite Ew.
    pose proof (del_black _ _ _ _ _ _ _ _ _ _ _ _ _ G Pn Cp Hs Hwl Hwr K) as D. revert D. rewrite Pn.
    match goal with |- dturn _ _ ?r -> dturn _ _ ?r' => change r' with r; destruct r as [m' n'] end. cbn [dturn].
    intros [(k' & t' & pc' & H' & G' & K' & L' & I' & X)|D]; [|right; exact D].
    left. exists k', t', pc', H'. repeat (split; [assumption|]). left. apply X.
Qed.

Lemma lacking_mirror t H : lacking t H -> lacking (mirror t) H.
Proof.
  intros [(l & a & r & -> & B)|(h & -> & B)].
  - left. exists (mirror r), a, (mirror l). split; [reflexivity|]. apply rbt_mirror in B. exact B.
  - right. exists h. split; [reflexivity|]. apply rbt_mirror, B.
Qed.
Lemma rootc_mirror t : rootc (mirror t) = rootc t.
Proof. destruct t; reflexivity. Qed.
Lemma mirror_plug : forall k t, mirror (plug k t) = plug (mirrorc k) (mirror t).
Proof. induction k as [|f k IH]; intros t; cbn [plug mirrorc map]; [reflexivity|]. rewrite IH, mirror_fill. reflexivity. Qed.
Lemma whole_swap m t : whole (swap m) t -> whole m (mirror t).
Proof. intros W. apply good_swap in W. rewrite swap_swap in W. exact W. Qed.

Lemma del_right_turn m k2 c p w0 s n h pc : good m (F false c p w0 :: k2) s n p -> par m n = p ->
  rbt false h s -> rbc (F false c p w0 :: k2) pc (S h) ->
  dturn (fun k' t' => k' = k2 \/ rootc t' = true) (inorder (plug (F false c p w0 :: k2) s)) (del_right m n).
Proof.
  intros G Pn Hs K. apply good_swap in G. apply rbt_mirror in Hs. apply rbc_mirror in K.
  pose proof (del_left_turn _ _ _ _ _ _ _ _ _ G Pn Hs K) as D. unfold del_right. destruct (del_left (swap m) n) as [m' n']. cbn [fst snd].
  match type of D with dturn _ ?i _ =>
    replace i with (rev (inorder (plug (F false c p w0 :: k2) s))) in D by (rewrite <- inorder_mirror, mirror_plug; reflexivity) end.
  cbn [dturn] in *.
  destruct D as [(k' & t' & pc' & H' & G' & K' & L' & I' & X)|(t' & h' & W & -> & B & I')].
  - left. exists (mirrorc k'), (mirror t'), pc', H'. split; [apply good_swap; exact G'|]. split; [apply rbc_mirror; exact K'|].
    split; [apply lacking_mirror; exact L'|]. split; [rewrite <- mirror_plug, inorder_mirror, I'; apply rev_involutive|].
    rewrite rootc_mirror. destruct X as [->|X]; [left; apply mirrorc_mirrorc|auto].
  - right. exists (mirror t'), h'. split; [apply whole_swap; rewrite swap_swap; exact W|]. split; [reflexivity|]. split; [apply rbt_mirror; exact B|].
    rewrite inorder_mirror, I'. apply rev_involutive.
Qed.

Lemma good_blacken m k t n q : good m k t n q ->
  good (set_red m n false) k (match t with E => E | T _ l a r => T false l a r end) n q.
Proof.
  intros G. set (rd := set (red m) n false). change (set_red m n false) with (recol m rd). destruct t as [|c l a r].
  - pose proof G as (R & Hn & U & N0). cbn [rep] in Hn. subst n.
    apply (good_paint m rd k E 0 q G); unfold rd; [|apply set_eq]. intros x Hx. apply set_neq. intros ->.
    rewrite (repc_0 _ _ _ _ R) in Hx. lia.
  - destruct (good_parent _ _ _ _ _ _ _ _ G) as (-> & _ & _ & Z). paints G rd.
Qed.
Lemma repc_rootin m : forall k p q, repc m p q k -> k <> [] -> (0 < cntc (root m) k)%nat.
Proof.
  induction k as [|f k IH]; intros p q R Hk; [congruence|]. cbn [repc cntc] in *. destruct R as (-> & H0 & H1 & _ & R).
  destruct k as [|g k]; [|specialize (IH _ _ R ltac:(discriminate)); lia]. cbn [repc] in R. destruct R as [-> _]. rewrite ind_refl. lia.
Qed.
Lemma good_not_root m k t n q : good m k t n q -> k <> [] -> n <> root m.
Proof.
  intros (R & Hn & U & _) Hk X. pose proof (repc_rootin _ _ _ _ R Hk) as Hr. rewrite <- X in Hr.
  destruct (N.eq_dec n 0) as [->|Z]; [rewrite (repc_0 _ _ _ _ R) in Hr; lia|]. pose proof (rep_root _ _ _ _ Hn Z). specialize (U n). lia.
Qed.

(** The loop ends at a red focus, *)
Lemma delete_fixup_red f m k t n pc H : good m k t n (par m n) -> rbc k pc H -> lacking t H -> rootc t = true ->
  exists m' t', delete_fixup (S f) m n = Some m' /\ whole m' t' /\ inorder t' = inorder (plug k t) /\ exists h', rbt false h' t'.
Proof.
  intros G K L Hc. destruct L as [(l & a & r & -> & B)|(h & -> & B)]; [|rewrite (rbt_rootc _ _ _ B) in Hc; discriminate].
  pose proof (good_blacken _ _ _ _ _ G) as G'. cbv iota in G'. exists (set_red m n false), (plug k (T false l a r)).
  rewrite delete_fixup_S. destruct (good_parent _ _ _ _ _ _ _ _ G) as (-> & _ & -> & _). rewrite andb_false_r. split; [reflexivity|].
  split; [eapply good_whole; [exact G'|left; reflexivity]|]. split; [rewrite !inorder_plug; reflexivity|].
  eapply plug_black; eauto.
Qed.
(** or at the root. *)
Lemma delete_fixup_root f m t h : whole m t -> rbt false h t ->
  exists m' t', delete_fixup (S f) m (root m) = Some m' /\ whole m' t' /\ inorder t' = inorder t /\ exists h', rbt false h' t'.
Proof.
  intros W B. rewrite delete_fixup_S, N.eqb_refl. cbn [negb andb]. destruct (finish _ _ _ _ W B) as (t' & W' & I & B'). eauto 10.
Qed.

Theorem delete_fixup_ok : forall fuel m k t n pc H, (length k + 2 <= fuel)%nat -> good m k t n (par m n) -> rbc k pc H -> lacking t H ->
  exists m' t', delete_fixup fuel m n = Some m' /\ whole m' t' /\ inorder t' = inorder (plug k t) /\ exists h', rbt false h' t'.
Proof.
  induction fuel as [|fuel IH]; [lia|]. intros m k t n pc H Hf G K L.
  destruct (rootc t) eqn:Hc; [eapply delete_fixup_red; eauto|].
  destruct L as [(l & a & r & -> & B)|(h & -> & B)]; [discriminate Hc|].
  destruct k as [|[d c p w0] k2].
  { assert (n = root m) by (destruct G as ((<- & _) & _); reflexivity). subst n. cbn [plug]. eapply delete_fixup_root; [|exact B].
    pose proof G as ((_ & P) & _). rewrite P in G. exact G. }
  rewrite delete_fixup_S. rewrite (proj2 (N.eqb_neq _ _) (good_not_root _ _ _ _ _ G ltac:(discriminate))).
  pose proof G as (R & Hn & U & N0). rewrite (rep_rootc _ _ _ _ Hn N0), Hc. cbn [negb andb].
  assert (Pn : par m n = p) by (cbn [repc fa] in R; tauto). rewrite Pn in G.
  assert (D : dturn (fun k' t' => k' = k2 \/ rootc t' = true) (inorder (plug (F d c p w0 :: k2) t)) (if n =? lft m (par m n) then del_left m n else del_right m n)).
  { rewrite Pn. cbn [repc fa fl fs] in R. destruct R as (_ & Zp & _ & R & _). destruct d; destruct R as [E1 R].
    - rewrite E1, N.eqb_refl. eapply del_left_turn; eauto.
    - assert (X : n <> lft m p).
      { intros X. assert (W : exists cw, rbt cw (S h) w0) by (inversion K; subst; eauto). destruct W as (cw & W).
        destruct w0 as [|wc wl w wr]; [inversion W|]. assert (n = w) by (cbn [rep] in R; rewrite X; tauto). subst w.
        assert (Zn : n <> 0) by (cbn [rep] in R; tauto). pose proof (rep_root _ _ _ _ Hn Zn). uq U n. lia. }
      rewrite (proj2 (N.eqb_neq _ _) X). eapply del_right_turn; eauto. }
  replace (if n =? lft m (par m n) then let (m', n') := del_left m n in delete_fixup fuel m' n' else let (m', n') := del_right m n in delete_fixup fuel m' n')
    with (let (m', n') := (if n =? lft m (par m n) then del_left m n else del_right m n) in delete_fixup fuel m' n') by (destruct (n =? lft m (par m n)); reflexivity).
  destruct (if n =? lft m (par m n) then del_left m n else del_right m n) as [m' n']. cbn [dturn] in D. cbn [length] in Hf.
  destruct D as [(k' & t' & pc' & H' & G' & K' & L' & I' & X)|(t' & h' & W & -> & B' & I')].
  - rewrite <- I'. destruct X as [->|X].
    + eapply IH; eauto. lia.
    + destruct fuel as [|fuel]; [lia|]. eapply delete_fixup_red; eauto.
  - rewrite <- I'. destruct fuel as [|fuel]; [lia|]. eapply delete_fixup_root; eauto.
Qed.

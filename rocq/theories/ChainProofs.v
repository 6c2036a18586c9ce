Require Import List Arith NArith Lia Bool Permutation.
Require Import Verif.Base Verif.ChainModel Verif.ChainSpec.
Import ListNotations.

Lemma app_split {A} (l1 : list A) x l2 m1 y m2 : l1 ++ x :: l2 = m1 ++ y :: m2 ->
  (exists k, m1 = l1 ++ x :: k /\ l2 = k ++ y :: m2) \/
  (l1 = m1 /\ x = y /\ l2 = m2) \/
  (exists k, l1 = m1 ++ y :: k /\ m2 = k ++ x :: l2).
Proof.
  revert m1; induction l1 as [|a l1 IH]; intros [|b m1] E; cbn in E.
  - injection E as -> ->. auto.
  - injection E as -> ->. left. exists m1; auto.
  - injection E as -> E. right; right. exists l1. auto.
  - injection E as -> E. destruct (IH m1 E) as [(k & -> & ->)|[(-> & -> & ->)|(k & -> & ->)]].
    + left. exists k; auto.
    + right; left; auto.
    + right; right. exists k; auto.
Qed.

Lemma app_split2 {A} (l1 l2 : list A) m1 y m2 : l1 ++ l2 = m1 ++ y :: m2 ->
  (exists k, m1 = l1 ++ k /\ l2 = k ++ y :: m2) \/
  (exists k, l1 = m1 ++ y :: k /\ m2 = k ++ l2).
Proof.
  revert m1; induction l1 as [|a l1 IH]; intros m1 E; cbn in E.
  - left. exists m1. auto.
  - destruct m1 as [|b m1]; cbn in E; injection E as -> E.
    + right. exists l1. auto.
    + destruct (IH m1 E) as [(k & -> & ->)|(k & -> & ->)]; [left|right]; exists k; auto.
Qed.

Lemma last_case {A} (l : list A) : l = [] \/ exists k x, l = k ++ [x].
Proof. destruct l; [auto|]. right. destruct (@exists_last _ (a :: l)) as (k & x & E); [discriminate|]. eauto. Qed.

Lemma nodup_app_l {A} (a b : list A) : NoDup (a ++ b) -> NoDup a.
Proof.
  induction a as [|x a IH]; intros H; [constructor|]. cbn in H. inversion H as [|? ? H1 H2]; subst.
  constructor; auto. intros Hi. apply H1. apply in_app_iff. auto.
Qed.
Lemma nodup_app_r {A} (a b : list A) : NoDup (a ++ b) -> NoDup b.
Proof. induction a as [|x a IH]; intros H; auto. cbn in H. inversion H; auto. Qed.

Section P.
Context {D : Type}.
Implicit Types (h : heap D) (l : list (N * D)).

Definition hdo l : option N := match l with [] => None | x :: _ => Some (fst x) end.
Definition lasto l : option N := hdo (rev l).

Lemma hdo_app a b : hdo (a ++ b) = match a with [] => hdo b | _ => hdo a end.
Proof. destruct a; reflexivity. Qed.
Lemma lasto_snoc l x : lasto (l ++ [x]) = Some (fst x).
Proof. unfold lasto. rewrite rev_app_distr. reflexivity. Qed.
Lemma lasto_app a b : lasto (a ++ b) = match b with [] => lasto a | _ => lasto b end.
Proof.
  destruct b as [|x b]; [now rewrite app_nil_r|].
  unfold lasto. rewrite rev_app_distr, hdo_app.
  destruct (rev (x :: b)) eqn:E; [|reflexivity].
  apply (f_equal (@length _)) in E. rewrite rev_length in E. discriminate.
Qed.
Lemma lasto_cons x l : lasto (x :: l) = match l with [] => Some (fst x) | _ => lasto l end.
Proof. change (x :: l) with ([x] ++ l). rewrite lasto_app. destruct l; reflexivity. Qed.
Lemma lasto_in l p : lasto l = Some p -> In p (map fst l).
Proof.
  unfold lasto. destruct (rev l) as [|x t] eqn:E; [discriminate|]. cbn. intros H. injection H as <-.
  apply in_map. apply in_rev. rewrite E. left; auto.
Qed.
Lemma hdo_in l p : hdo l = Some p -> In p (map fst l).
Proof. destruct l; [discriminate|]. cbn. intros H. injection H as <-. left; auto. Qed.

Definition dll h l : Prop :=
  NoDup (map fst l) /\
  forall l1 a d l2, l = l1 ++ (a, d) :: l2 -> h a = Some (mkC d (lasto l1) (hdo l2)).

Lemma hset_eq h a c : hset h a c a = Some c.
Proof. unfold hset. now rewrite N.eqb_refl. Qed.
Lemma hset_neq h a b c : b <> a -> hset h a c b = h b.
Proof. unfold hset. intros H. destruct (N.eqb_spec b a); congruence. Qed.
Lemma hdel_neq h a b : b <> a -> hdel h a b = h b.
Proof. unfold hdel. intros H. destruct (N.eqb_spec b a); congruence. Qed.
Lemma hdel_eq h a : hdel h a a = None.
Proof. unfold hdel. now rewrite N.eqb_refl. Qed.

Lemma dll_nil h : dll h [].
Proof. split; [constructor|]. intros [|] ? ? ? H; discriminate. Qed.

Lemma dll_frame h h' l : dll h l -> (forall a, In a (map fst l) -> h' a = h a) -> dll h' l.
Proof.
  intros [H1 H2] Hf. split; auto. intros l1 a d l2 E. rewrite Hf; [eauto|].
  rewrite E, map_app. apply in_app_iff. right. left. reflexivity.
Qed.

Lemma dll_cell h l a d l1 l2 : dll h l -> l = l1 ++ (a, d) :: l2 -> h a = Some (mkC d (lasto l1) (hdo l2)).
Proof. intros [_ H] E. eauto. Qed.

(** ** chain_add *)
Lemma chain_add_ok h l n c : dll h l -> ~ In n (map fst l) -> h n = Some c ->
  exists h', chain_add h (hdo l) (lasto l) n = Some (h', hdo (l ++ [(n, dat c)]), lasto (l ++ [(n, dat c)])) /\
    dll h' (l ++ [(n, dat c)]) /\ forall a, ~ In a (n :: map fst l) -> h' a = h a.
Proof.
  intros Hd Hn Hc. rewrite lasto_snoc. cbn [fst]. unfold chain_add, set_next, set_prev.
  rewrite Hc. cbn [obind dat prv nxt].
  assert (ND : NoDup (map fst (l ++ [(n, dat c)]))).
  { rewrite map_app.
    apply NoDup_Add with (a := n) (l := map fst l).
    - pose proof (Add_app n (map fst l) []) as HA. rewrite app_nil_r in HA. exact HA.
    - split; [apply Hd|exact Hn]. }
  destruct (last_case l) as [->|(k & [t dt] & El)].
  - cbn [hdo obind fst snd]. rewrite hset_eq. cbn [obind dat prv nxt].
    eexists. split; [reflexivity|]. split.
    + split; [exact ND|]. intros l1 a d l2 E. destruct l1 as [|x [|y l1]]; cbn in E; try discriminate.
      injection E as <- <- <-. rewrite hset_eq. reflexivity.
    + intros a Ha. cbn in Ha. rewrite !hset_neq by intuition. reflexivity.
  - assert (Hh : hdo l = hdo (l ++ [(n, dat c)])) by (rewrite hdo_app, El; destruct k; reflexivity).
    assert (Hnt : n <> t).
    { intros ->. apply Hn. rewrite El, map_app. apply in_app_iff. right; left; auto. }
    pose proof (dll_cell h l t dt k [] Hd El) as Ht. cbn [hdo] in Ht.
    assert (Hl : lasto l = Some t) by (rewrite El; apply lasto_snoc).
    destruct (hdo l) as [q|] eqn:Eh; [|rewrite El in Eh; destruct k; discriminate].
    rewrite Hl. cbn [obind]. rewrite hset_neq, Ht by congruence. cbn [obind dat prv nxt fst snd].
    rewrite hset_neq, hset_eq by congruence. cbn [obind dat prv nxt fst snd].
    eexists. split; [rewrite Hh; reflexivity|]. split.
    + split; [exact ND|]. intros l1 a d l2 E.
      destruct (app_split2 l [(n, dat c)] l1 (a, d) l2 E) as [(m & -> & E2)|(m & E1 & ->)].
      * destruct m as [|? [|? ?]]; cbn in E2; try discriminate. injection E2 as <- <- <-.
        rewrite hset_eq, app_nil_r, Hl. reflexivity.
      * assert (Ha : In a (map fst l)) by (rewrite E1, map_app; apply in_app_iff; right; left; auto).
        assert (Han : a <> n) by (intros ->; contradiction).
        rewrite hset_neq by auto.
        pose proof (dll_cell h l a d l1 m Hd E1) as Hca.
        destruct (N.eq_dec a t) as [->|Hat].
        -- rewrite hset_eq. rewrite Hca in Ht. injection Ht as -> E3 E4.
           destruct m as [|x m]; [|discriminate]. rewrite E3. reflexivity.
        -- rewrite !hset_neq by auto. rewrite Hca. do 2 f_equal. rewrite hdo_app.
           destruct m; auto. exfalso. rewrite E1 in Hl. rewrite lasto_snoc in Hl. cbn in Hl. congruence.
    + intros a Ha. assert (a <> n) by (intros ->; apply Ha; left; auto).
      assert (a <> t). { intros ->. apply Ha. right. rewrite El, map_app. apply in_app_iff. right; left; auto. }
      rewrite !hset_neq by auto. reflexivity.
Qed.

(** ** chain_del *)
Lemma ptr_eqb_iff p a : ptr_eqb p a = true <-> p = Some a.
Proof.
  destruct p; cbn; [|split; discriminate]. rewrite N.eqb_eq. split; congruence.
Qed.

Lemma nodup_mid (l1 l2 : list (N * D)) n d : NoDup (map fst (l1 ++ (n, d) :: l2)) ->
  ~ In n (map fst l1) /\ ~ In n (map fst l2) /\ (forall a, In a (map fst l1) -> In a (map fst l2) -> False) /\
  NoDup (map fst (l1 ++ l2)) /\ NoDup (map fst l1) /\ NoDup (map fst l2).
Proof.
  rewrite !map_app. cbn [map fst]. intros H. pose proof (NoDup_remove_2 _ _ _ H) as H2.
  pose proof (NoDup_remove_1 _ _ _ H) as H1. rewrite in_app_iff in H2.
  split; [tauto|]. split; [tauto|]. split.
  - intros a Ha Hb. apply in_split in Ha as (x & y & E). rewrite E in H1.
    rewrite <- app_assoc in H1. cbn in H1. apply NoDup_remove_2 in H1. apply H1. rewrite !in_app_iff. auto.
  - split; auto. split; [apply nodup_app_l in H1; auto|apply nodup_app_r in H1; auto].
Qed.

Lemma chain_del_ok h l1 n d l2 : dll h (l1 ++ (n, d) :: l2) ->
  exists h', chain_del h (hdo (l1 ++ (n, d) :: l2)) (lasto (l1 ++ (n, d) :: l2)) n = Some (h', hdo (l1 ++ l2), lasto (l1 ++ l2)) /\
    dll h' (l1 ++ l2) /\ h' n = Some (mkC d None None) /\
    forall a, ~ In a (map fst (l1 ++ (n, d) :: l2)) -> h' a = h a.
Proof.
  intros Hd. pose proof (proj1 Hd) as ND. apply nodup_mid in ND as (N1 & N2 & N3 & N4 & N5 & N6).
  pose proof (dll_cell h _ n d l1 l2 Hd eq_refl) as Hc.
  assert (Hold : forall m1 a da m2, l1 ++ l2 = m1 ++ (a, da) :: m2 ->
    (exists k, m1 = l1 ++ k /\ l2 = k ++ (a, da) :: m2 /\
        h a = Some (mkC da (match k with [] => Some n | _ => lasto k end) (hdo m2)) /\ In a (map fst l2)) \/
    (exists k, l1 = m1 ++ (a, da) :: k /\ m2 = k ++ l2 /\
        h a = Some (mkC da (lasto m1) (match k with [] => Some n | _ => hdo k end)) /\ In a (map fst l1))).
  { intros m1 a da m2 E. destruct (app_split2 _ _ _ _ _ E) as [(k & -> & ->)|(k & -> & ->)].
    - left. exists k. split; auto. split; auto. split; [|rewrite map_app; apply in_app_iff; right; left; auto].
      erewrite (dll_cell h _ a da (l1 ++ (n, d) :: k) m2 Hd); [|rewrite <- app_assoc; reflexivity].
      do 2 f_equal. rewrite lasto_app, lasto_cons. destruct k; reflexivity.
    - right. exists k. split; auto. split; auto. split; [|rewrite map_app; apply in_app_iff; right; left; auto].
      erewrite (dll_cell h _ a da m1 (k ++ (n, d) :: l2) Hd); [|rewrite <- app_assoc; reflexivity].
      do 2 f_equal. rewrite hdo_app. destruct k; reflexivity. }
  unfold chain_del, set_next, set_prev. rewrite hdo_app, lasto_app, lasto_cons.
  destruct (last_case l1) as [->|(k1 & [p dp] & E1)].
  - cbn [hdo fst app]. cbn [ptr_eqb]. rewrite N.eqb_refl.
    destruct l2 as [|[x dx] k2].
    + cbn [ptr_eqb lasto rev fst app]. rewrite N.eqb_refl. cbn [obind]. rewrite Hc. cbn [obind]. rewrite hset_eq. cbn [obind dat prv nxt].
      eexists. split; [reflexivity|]. split; [apply dll_nil|]. split; [apply hset_eq|].
      intros a Ha. cbn in Ha. rewrite !hset_neq by intuition. reflexivity.
    + assert (Hx : n <> x) by (intros ->; apply N2; left; auto).
      assert (Hln : ptr_eqb (lasto ((x, dx) :: k2)) n = false).
      { destruct (ptr_eqb (lasto ((x, dx) :: k2)) n) eqn:E; auto. apply ptr_eqb_iff in E. apply lasto_in in E. contradiction. }
      rewrite Hln, Hc. cbn [obind nxt hdo fst].
      destruct (Hold [] x dx k2 eq_refl) as [(k & Ek1 & Ek2 & Hxc & _)|(k & Ek & _)].
      2:{ destruct k; discriminate. }
      destruct k; [|discriminate]. cbn in Hxc. rewrite Hxc. cbn [obind dat prv nxt].
      rewrite (hset_neq h x n) by auto. rewrite Hc. cbn [obind dat prv nxt]. rewrite hset_eq. cbn [obind dat prv nxt].
      eexists. split; [reflexivity|]. split; [|split; [apply hset_eq|]].
      * split; auto. intros m1 a da m2 E.
        destruct (Hold m1 a da m2 E) as [(k & -> & Ek & Ha & Hi)|(k & Ek & _)]; [|destruct m1; discriminate].
        assert (a <> n) by (intros ->; contradiction).
        rewrite !(hset_neq _ n a) by auto. cbn [app].
        destruct k as [|y k].
        -- cbn in Ek. injection Ek as <- <- <-. rewrite hset_eq. reflexivity.
        -- cbn in Ek. injection Ek as <- Ek. rewrite hset_neq; [rewrite Ha; reflexivity|].
           intros ->. cbn in N6. inversion N6 as [|? ? Hni _]. apply Hni. rewrite Ek, map_app. apply in_app_iff. right; left; auto.
      * intros a Ha. cbn in Ha. rewrite !hset_neq by intuition. reflexivity.
  - assert (Hpn : n <> p). { intros ->. apply N1. rewrite E1, map_app. apply in_app_iff. right; left; auto. }
    assert (Hhn : ptr_eqb (match l1 with [] => hdo ((n, d) :: l2) | _ :: _ => hdo l1 end) n = false).
    { destruct l1 as [|y l1]; [destruct k1; discriminate|]. destruct (ptr_eqb _ n) eqn:E; auto.
      apply ptr_eqb_iff in E. apply hdo_in in E. contradiction. }
    rewrite Hhn.
    assert (Hl1 : lasto l1 = Some p) by (rewrite E1; apply lasto_snoc).
    assert (Ehd : match l1 with [] => hdo ((n, d) :: l2) | _ :: _ => hdo l1 end = hdo (l1 ++ l2)).
    { rewrite hdo_app. destruct l1; auto. destruct k1; discriminate. }
    rewrite Ehd.
    destruct (Hold k1 p dp l2) as [(k & Ek & _)|(k & Ek & Ek' & Hpc & _)].
    { rewrite E1, <- app_assoc. reflexivity. }
    { exfalso. assert (EL := f_equal (@length _) Ek). rewrite E1, !app_length in EL. cbn in EL. lia. }
    assert (k = []).
    { assert (EL := f_equal (@length _) Ek). rewrite E1, !app_length in EL. cbn in EL. destruct k; auto. cbn in EL; lia. }
    subst k. clear Ek Ek'.
    destruct l2 as [|[x dx] k2].
    + cbn [ptr_eqb fst]. rewrite N.eqb_refl, Hc. cbn [obind dat prv nxt]. rewrite Hl1. cbn [obind]. rewrite Hpc.
      cbn [obind dat prv nxt]. rewrite (hset_neq h p n) by auto. rewrite Hc. cbn [obind dat prv nxt]. rewrite hset_eq. cbn [obind dat prv nxt].
      eexists. split; [rewrite lasto_app, Hl1; reflexivity|]. split; [|split; [apply hset_eq|]].
      * split; auto. intros m1 a da m2 E.
        destruct (Hold m1 a da m2 E) as [(k & _ & Ek & _)|(k & Ek & -> & Ha & Hi)]; [destruct k; discriminate|].
        assert (a <> n) by (intros ->; contradiction).
        rewrite !(hset_neq _ n a) by auto. rewrite app_nil_r in *.
        destruct (N.eq_dec a p) as [->|Hap].
        -- rewrite hset_eq. rewrite Hpc in Ha. injection Ha as -> E3 E4. rewrite E3.
           destruct k as [|y k]; [reflexivity|]. exfalso.
           injection E4 as E4. rewrite Ek in N1. apply N1. rewrite map_app, E4. apply in_app_iff. right; right; left; auto.
        -- rewrite hset_neq by auto. rewrite Ha. destruct k as [|y k]; auto. exfalso.
           rewrite Ek, lasto_snoc in Hl1. cbn in Hl1. congruence.
      * intros a Ha. rewrite map_app, in_app_iff in Ha. cbn in Ha.
        assert (a <> p). { intros ->. apply Ha. left. apply lasto_in. exact Hl1. }
        rewrite !hset_neq by intuition. reflexivity.
    + assert (Hx : n <> x) by (intros ->; apply N2; left; auto).
      assert (Hpx : p <> x). { intros ->. apply (N3 x). apply lasto_in; auto. left; auto. }
      assert (Hln : ptr_eqb (lasto ((x, dx) :: k2)) n = false).
      { destruct (ptr_eqb (lasto ((x, dx) :: k2)) n) eqn:E; auto. apply ptr_eqb_iff in E. apply lasto_in in E. contradiction. }
      rewrite Hln, Hc. cbn [obind dat prv nxt]. rewrite Hl1. cbn [obind]. rewrite Hpc. cbn [obind dat prv nxt hdo fst].
      rewrite (hset_neq h p n) by auto. rewrite Hc. cbn [obind dat prv nxt hdo fst].
      destruct (Hold l1 x dx k2 eq_refl) as [(k & Ek1 & Ek2 & Hxc & _)|(k & Ek & _)].
      2:{ exfalso. assert (EL := f_equal (@length _) Ek). rewrite app_length in EL. cbn in EL. lia. }
      assert (k = []).
      { assert (EL := f_equal (@length _) Ek1). rewrite app_length in EL. destruct k; auto. cbn in EL; lia. }
      subst k. clear Ek1 Ek2.
      rewrite (hset_neq h p x) by auto. rewrite Hxc. cbn [obind dat prv nxt].
      rewrite (hset_neq _ x n), (hset_neq _ p n) by auto. rewrite Hc. cbn [obind dat prv nxt].
      rewrite hset_eq. cbn [obind dat prv nxt].
      eexists. split; [rewrite lasto_app; reflexivity|]. split; [|split; [apply hset_eq|]].
      * split; auto. intros m1 a da m2 E.
        destruct (Hold m1 a da m2 E) as [(k & -> & Ek & Ha & Hi)|(k & Ek & -> & Ha & Hi)].
        -- assert (a <> n) by (intros ->; contradiction).
           assert (a <> p). { intros ->. apply (N3 p); auto. apply lasto_in; auto. }
           rewrite !(hset_neq _ n a) by auto.
           destruct (N.eq_dec a x) as [->|Hax].
           ++ rewrite hset_eq. rewrite Hxc in Ha. destruct k as [|y k].
              ** cbn in Ek. injection Ek as -> ->. rewrite app_nil_r, Hl1. reflexivity.
              ** exfalso. cbn in Ek. injection Ek as <- Ek. cbn in N6. inversion N6 as [|? ? Hni _].
                 apply Hni. rewrite Ek, map_app. apply in_app_iff. right; left; auto.
           ++ rewrite !hset_neq by auto. rewrite Ha. do 2 f_equal. rewrite lasto_app.
              destruct k; auto. cbn in Ek. congruence.
        -- assert (a <> n) by (intros ->; contradiction).
           assert (a <> x). { intros ->. apply (N3 x); auto. left; auto. }
           rewrite !(hset_neq _ n a), (hset_neq _ x a) by auto.
           destruct (N.eq_dec a p) as [->|Hap].
           ++ rewrite hset_eq. rewrite Hpc in Ha. injection Ha as -> E3 E4. rewrite E3.
              destruct k as [|y k]; [reflexivity|]. exfalso.
              injection E4 as E4. rewrite Ek in N1. apply N1. rewrite map_app, E4. apply in_app_iff. right; right; left; auto.
           ++ rewrite hset_neq by auto. rewrite Ha. do 2 f_equal. rewrite hdo_app. destruct k as [|y k]; auto. exfalso.
              rewrite Ek, lasto_snoc in Hl1. cbn in Hl1. congruence.
      * intros a Ha. rewrite map_app, in_app_iff in Ha. cbn in Ha.
        assert (a <> p). { intros ->. apply Ha. left. apply lasto_in. exact Hl1. }
        rewrite !hset_neq by intuition. reflexivity.
Qed.

(** ** Walking *)
Lemma walk_next_ok h : forall l2 l1 fuel, dll h (l1 ++ l2) -> length l2 <= fuel -> walk_next fuel h (hdo l2) = Some l2.
Proof.
  induction l2 as [|[a d] l2 IH]; intros l1 fuel Hd Hf; [destruct fuel; reflexivity|].
  destruct fuel as [|f]; [cbn in Hf; lia|]. cbn [hdo fst walk_next].
  rewrite (dll_cell h _ a d l1 l2 Hd eq_refl). cbn [obind nxt dat].
  rewrite (IH (l1 ++ [(a, d)]) f); [reflexivity| |cbn in Hf; lia].
  rewrite <- app_assoc. exact Hd.
Qed.

Lemma walk_prev_ok h : forall l1 l2 fuel, dll h (rev l1 ++ l2) -> length l1 <= fuel -> walk_prev fuel h (hdo l1) = Some l1.
Proof.
  induction l1 as [|[a d] l1 IH]; intros l2 fuel Hd Hf; [destruct fuel; reflexivity|].
  destruct fuel as [|f]; [cbn in Hf; lia|]. cbn [hdo fst walk_prev]. cbn [rev] in Hd. rewrite <- app_assoc in Hd. cbn [app] in Hd.
  rewrite (dll_cell h _ a d (rev l1) l2 Hd eq_refl). cbn [obind prv dat].
  unfold lasto. rewrite rev_involutive.
  rewrite (IH ((a, d) :: l2) f); [reflexivity|exact Hd|cbn in Hf; lia].
Qed.
End P.

(** ** Intrusive lists *)
Section Lists.
Context {D : Type}.
Implicit Types (st : lists D) (f : nat -> list N).

Definition op_node (o : lop) : N := match o with LAdd _ n => n | LRemove _ n => n end.

Definition linv st f : Prop := exists L : nat -> list (N * D),
  (forall s, map fst (L s) = f s /\ dll (mem st) (L s) /\ sent st s = (hdo (L s), lasto (L s))) /\
  (forall s s' a, s <> s' -> In a (f s) -> In a (f s') -> False).

Lemma upd_at_eq {A} (f : nat -> A) i v : upd_at f i v i = v.
Proof. unfold upd_at. now rewrite Nat.eqb_refl. Qed.
Lemma upd_at_neq {A} (f : nat -> A) i j v : j <> i -> upd_at f i v j = f j.
Proof. unfold upd_at. intros H. destruct (Nat.eqb_spec j i); congruence. Qed.

Lemma remove_split (n : N) l1 l2 : ~ In n l1 -> ~ In n l2 -> remove N.eq_dec n (l1 ++ n :: l2) = l1 ++ l2.
Proof.
  intros H1 H2. rewrite remove_app. cbn [remove]. destruct (N.eq_dec n n); [|congruence].
  rewrite !notin_remove by auto. reflexivity.
Qed.

Lemma l_step_ok st f o : linv st f -> l_legal f o -> mem st (op_node o) <> None ->
  exists st', l_step st o = Some st' /\ linv st' (l_spec f o) /\
    (forall a, option_map dat (mem st' a) = option_map dat (mem st a)) /\
    (forall a, a <> op_node o -> (forall s, ~ In a (f s)) -> mem st' a = mem st a).
Proof.
  intros (L & HL & Hdis) Hleg Hex. destruct o as [s n|s n]; cbn [l_step l_legal l_spec op_node] in *.
  - destruct (mem st n) as [c|] eqn:Hc; [|congruence].
    destruct (HL s) as (E1 & E2 & E3). specialize (Hleg) as Hn.
    destruct (chain_add_ok (mem st) (L s) n c E2) as (h' & R1 & R2 & R3); auto.
    { rewrite E1. apply Hn. }
    unfold list_add. rewrite E3. cbn [fst snd]. rewrite R1. cbn [obind].
    eexists. split; [reflexivity|]. cbn [mem sent].
    split; [|split].
    + exists (upd_at L s (L s ++ [(n, dat c)])). split.
      * intros s'. cbn [mem sent]. unfold set_sent. destruct (Nat.eqb_spec s' s) as [->|Hs].
        -- rewrite !upd_at_eq, map_app, E1. auto.
        -- rewrite !upd_at_neq by auto. destruct (HL s') as (F1 & F2 & F3). split; auto. split; auto.
           eapply dll_frame; [exact F2|]. intros a Ha. apply R3. rewrite F1 in Ha. cbn. rewrite E1. intros [->|Hi].
           ++ exact (Hn s' Ha).
           ++ exact (Hdis s s' a (not_eq_sym Hs) Hi Ha).
      * intros s1 s2 a Hne. unfold upd_at. destruct (Nat.eqb_spec s1 s), (Nat.eqb_spec s2 s); subst; try congruence.
        -- rewrite in_app_iff. intros [H|[->|[]]] H2; [eapply (Hdis s s2); eauto|]. exact (Hn _ H2).
        -- rewrite in_app_iff. intros H2 [H|[->|[]]]; [eapply (Hdis s s1); eauto|]. exact (Hn _ H2).
        -- intros Ha Hb. exact (Hdis s1 s2 a Hne Ha Hb).
    + intros a. destruct (in_dec N.eq_dec a (n :: map fst (L s))) as [Hi|Hi]; [|rewrite R3 by auto; reflexivity].
      destruct Hi as [<-|Hi].
      * rewrite (dll_cell h' _ n (dat c) (L s) [] R2 eq_refl), Hc. reflexivity.
      * apply in_map_iff in Hi as ([a' d] & <- & Hi). apply in_split in Hi as (l1 & l2 & E). cbn [fst].
        rewrite (dll_cell (mem st) _ a' d l1 l2 E2 E).
        erewrite (dll_cell h' _ a' d l1 (l2 ++ [(n, dat c)]) R2); [reflexivity|].
        rewrite E, <- app_assoc. reflexivity.
    + intros a Ha Hf. apply R3. rewrite E1. cbn. intros [?|Hi]; [congruence|]. exact (Hf s Hi).
  - destruct (HL s) as (E1 & E2 & E3).
    rewrite <- E1 in Hleg. apply in_map_iff in Hleg as ([n' d] & En & Hi). cbn in En. subst n'.
    apply in_split in Hi as (l1 & l2 & E). rewrite E in E2.
    destruct (chain_del_ok (mem st) l1 n d l2 E2) as (h' & R1 & R2 & R3 & R4).
    pose proof (proj1 E2) as ND. apply nodup_mid in ND as (N1 & N2 & N3 & N4 & _).
    unfold list_remove. rewrite E3, E. cbn [fst snd]. rewrite R1. cbn [obind].
    eexists. split; [reflexivity|]. cbn [mem sent].
    assert (Hrem : remove N.eq_dec n (f s) = map fst (l1 ++ l2)).
    { rewrite <- E1, E, !map_app. cbn. apply remove_split; auto. }
    assert (Hsub : forall a, In a (map fst (l1 ++ l2)) -> In a (f s)).
    { intros a. rewrite <- E1, E, !map_app, !in_app_iff. cbn. tauto. }
    split; [|split].
    + exists (upd_at L s (l1 ++ l2)). split.
      * intros s'. cbn [mem sent]. unfold set_sent. destruct (Nat.eqb_spec s' s) as [->|Hs].
        -- rewrite !upd_at_eq. auto.
        -- rewrite !upd_at_neq by auto. destruct (HL s') as (F1 & F2 & F3). split; auto. split; auto.
           eapply dll_frame; [exact F2|]. intros a Ha. apply R4. rewrite F1 in Ha. intros Hi.
           rewrite <- E in Hi. rewrite E1 in Hi. exact (Hdis s s' a (not_eq_sym Hs) Hi Ha).
      * intros s1 s2 a Hne. unfold upd_at. destruct (Nat.eqb_spec s1 s), (Nat.eqb_spec s2 s); subst; try congruence.
        -- rewrite Hrem. intros H H2. eapply (Hdis s s2); eauto.
        -- rewrite Hrem. intros H2 H. eapply (Hdis s s1); eauto.
        -- intros Ha Hb. exact (Hdis s1 s2 a Hne Ha Hb).
    + intros a. destruct (in_dec N.eq_dec a (map fst (l1 ++ (n, d) :: l2))) as [Hi|Hi]; [|rewrite R4 by auto; reflexivity].
      apply in_map_iff in Hi as ([a' d'] & <- & Hi). cbn [fst]. pose proof Hi as Hi0. apply in_split in Hi0 as (k1 & k2 & Ek).
      rewrite (dll_cell (mem st) _ a' d' k1 k2 E2 Ek). cbn [option_map dat].
      apply in_app_iff in Hi as [Hi|[Hi|Hi]].
      * apply in_split in Hi as (j1 & j2 & Ej). erewrite (dll_cell h' _ a' d' j1 (j2 ++ l2) R2); [reflexivity|].
        rewrite Ej, <- app_assoc. reflexivity.
      * injection Hi as <- <-. rewrite R3. reflexivity.
      * apply in_split in Hi as (j1 & j2 & Ej). erewrite (dll_cell h' _ a' d' (l1 ++ j1) j2 R2); [reflexivity|].
        rewrite Ej, <- app_assoc. reflexivity.
    + intros a Ha Hf. apply R4. rewrite <- E, E1. apply Hf.
Qed.

Lemma l_spec_in f o a s : In a (l_spec f o s) -> a = op_node o \/ In a (f s).
Proof.
  destruct o as [s' n|s' n]; cbn; unfold upd_at; destruct (s =? s') eqn:E; auto.
  - apply Nat.eqb_eq in E. subst. rewrite in_app_iff. intros [H|[H|[]]]; auto.
  - apply Nat.eqb_eq in E. subst. intros H. apply in_remove in H. tauto.
Qed.

Lemma l_run_ok : forall ops st f, linv st f -> l_legal_run f ops -> (forall o, In o ops -> mem st (op_node o) <> None) ->
  exists st', l_run st ops = Some st' /\ linv st' (l_spec_run f ops) /\
    (forall a, option_map dat (mem st' a) = option_map dat (mem st a)) /\
    (forall a, (forall o, In o ops -> a <> op_node o) -> (forall s, ~ In a (f s)) -> mem st' a = mem st a).
Proof.
  induction ops as [|o ops IH]; intros st f Hi Hl Hex; cbn [l_run l_spec_run].
  - exists st. auto.
  - destruct Hl as [Hl1 Hl2].
    destruct (l_step_ok st f o Hi Hl1 (Hex o (or_introl eq_refl))) as (st1 & E & Hi1 & Hd1 & Hf1).
    rewrite E. cbn [obind].
    destruct (IH st1 (l_spec f o) Hi1 Hl2) as (st2 & E2 & Hi2 & Hd2 & Hf2).
    { intros o' Ho' Hn. apply (Hex o' (or_intror Ho')).
      specialize (Hd1 (op_node o')). rewrite Hn in Hd1. destruct (mem st (op_node o')); [discriminate|auto]. }
    exists st2. split; auto. split; auto. split.
    + intros a. rewrite Hd2. apply Hd1.
    + intros a Ha Hs. rewrite Hf2, Hf1; auto.
      * apply Ha. left; auto.
      * intros o' Ho'. apply Ha. right; auto.
      * intros s Hs'. apply l_spec_in in Hs' as [->|Hs']; [|exact (Hs s Hs')]. apply (Ha o); auto. left; auto.
Qed.

Lemma lists_ok (st : lists D) ops :
  (forall s, sent st s = (None, None)) -> l_legal_run (fun _ => []) ops -> (forall o, In o ops -> mem st (op_node o) <> None) ->
  exists st', l_run st ops = Some st' /\
    (forall s, let l := l_spec_run (fun _ => []) ops s in
      option_map (map fst) (walk_next (length l) (mem st') (fst (sent st' s))) = Some l /\
      option_map (map fst) (walk_prev (length l) (mem st') (snd (sent st' s))) = Some (rev l)) /\
    (forall a, option_map dat (mem st' a) = option_map dat (mem st a)) /\
    (forall a, (forall o, In o ops -> a <> op_node o) -> mem st' a = mem st a).
Proof.
  intros H0 Hl Hex. destruct (l_run_ok ops st (fun _ => [])) as (st' & E & (L & HL & _) & Hd & Hf); auto.
  { exists (fun _ => []). split; [|intros ? ? ? ? []]. intros s. split; auto. split; [apply dll_nil|]. apply H0. }
  exists st'. split; auto. split; [|split]; auto.
  intros s. destruct (HL s) as (E1 & E2 & E3). cbn zeta. rewrite E3, <- E1, map_length. cbn [fst snd]. split.
  - rewrite (walk_next_ok (mem st') (L s) [] (length (L s))); auto.
  - rewrite <- map_rev. unfold lasto. rewrite (walk_prev_ok (mem st') (rev (L s)) [] (length (L s))); auto.
    + rewrite rev_involutive, app_nil_r. auto.
    + rewrite rev_length. auto.
Qed.
End Lists.

(** ** Stacks *)
Section Stacks.
Context {D : Type}.
Implicit Types (h : heap D) (l m : list (N * D)).

Definition mkst l (k : N) : stack := mkSt (hdo l) (lasto l) k.

Lemma dll_alloc h l a : dll h l -> In a (map fst l) -> h a <> None.
Proof.
  intros Hd Hi. apply in_map_iff in Hi as ([a' d] & <- & Hi). apply in_split in Hi as (l1 & l2 & E).
  cbn [fst]. rewrite (dll_cell h l a' d l1 l2 Hd E). discriminate.
Qed.

Lemma push_ok h l k a v : dll h l -> h a = None ->
  exists h', st_push h (mkst l k) (Some a) v = Some (h', mkst (l ++ [(a, v)]) (k + 1)%N, true) /\
    dll h' (l ++ [(a, v)]) /\ forall b, ~ In b (a :: map fst l) -> h' b = h b.
Proof.
  intros Hd Ha. assert (Hn : ~ In a (map fst l)) by (intros Hi; exact (dll_alloc h l a Hd Hi Ha)).
  unfold st_push, mkst. cbn [bottom top nr_node].
  destruct (chain_add_ok (hset h a (mkC v None None)) l a (mkC v None None)) as (h' & E & H1 & H2); auto.
  - eapply dll_frame; [exact Hd|]. intros b Hb. apply hset_neq. intros ->; contradiction.
  - apply hset_eq.
  - rewrite E. cbn [obind dat] in *. exists h'. split; auto. split; auto.
    intros b Hb. rewrite H2 by auto. apply hset_neq. intros ->. apply Hb; left; auto.
Qed.

Lemma dll_del_frame h l1 l2 a : dll h (l1 ++ l2) -> ~ In a (map fst (l1 ++ l2)) -> dll (hdel h a) (l1 ++ l2).
Proof. intros Hd Hn. eapply dll_frame; [exact Hd|]. intros b Hb. apply hdel_neq. intros ->; contradiction. Qed.

Lemma pop_ok h l a d k : dll h (l ++ [(a, d)]) ->
  exists h', st_pop h (mkst (l ++ [(a, d)]) k) = Some (h', mkst l (k - 1)%N, Some d) /\
    dll h' l /\ (forall b, ~ In b (a :: map fst l) -> h' b = h b) /\ h' a = None.
Proof.
  intros Hd. unfold st_pop, mkst. cbn [bottom top nr_node]. rewrite lasto_snoc. cbn [fst].
  destruct (chain_del_ok h l a d [] Hd) as (h' & E & H1 & H2 & H3). rewrite app_nil_r in *.
  rewrite lasto_snoc in E. cbn [fst] in E. rewrite E. cbn [obind]. rewrite H2. cbn [obind dat].
  pose proof (proj1 Hd) as ND. apply nodup_mid in ND as (N1 & _).
  eexists. split; [reflexivity|]. split; [|split].
  - pose proof (dll_del_frame h' l [] a) as F. rewrite app_nil_r in F. apply F; auto.
  - intros b Hb. rewrite hdel_neq by (intros ->; apply Hb; left; auto). apply H3.
    rewrite map_app, in_app_iff. cbn in *. tauto.
  - apply hdel_eq.
Qed.

Lemma destroy_ok : forall l h k fuel, dll h l -> length l <= fuel ->
  exists h', st_destroy fuel h (mkst l k) = Some (h', map snd l) /\
    (forall b, ~ In b (map fst l) -> h' b = h b) /\ (forall b, In b (map fst l) -> h' b = None).
Proof.
  induction l as [|[a d] l IH]; intros h k fuel Hd Hf.
  - exists h. destruct fuel; cbn; split; auto; split; auto; intros b [].
  - destruct fuel as [|fuel]; [cbn in Hf; lia|].
    unfold mkst. cbn [st_destroy bottom top hdo fst nr_node].
    destruct (chain_del_ok h [] a d l Hd) as (h1 & E & H1 & H2 & H3). cbn [app hdo fst] in *.
    rewrite E. cbn [obind]. rewrite H2. cbn [obind dat].
    pose proof (nodup_mid [] l a d (proj1 Hd)) as (_ & N2 & _). 
    destruct (IH (hdel h1 a) k fuel) as (h2 & E2 & H4 & H5).
    + exact (dll_del_frame h1 [] l a H1 N2).
    + cbn in Hf; lia.
    + unfold mkst in E2. rewrite E2. cbn [obind fst snd]. exists h2. split; [reflexivity|]. split.
      * intros b Hb. cbn in Hb. rewrite H4 by tauto. rewrite hdel_neq by (intros ->; apply Hb; auto).
        apply H3. cbn. tauto.
      * intros b [<-|Hb]; [|auto]. cbn [fst]. rewrite H4 by auto. apply hdel_eq.
Qed.

Definition fresh_alloc (alloc : nat -> heap D -> option N) := forall k h a, alloc k h = Some a -> h a = None.

Lemma dup_loop_ok copy alloc (Hal : fresh_alloc alloc) fuel0 l0 :
  forall l2 l1 m h fuel k kn pre, l0 = l1 ++ l2 -> dll h l0 -> dll h m -> (forall a, In a (map fst l0) -> In a (map fst m) -> False) ->
    length l2 <= fuel -> length l0 <= fuel0 -> copies copy (map snd l1) = Some (map snd m) -> pre = map snd l1 -> length m = length l1 ->
  exists h' r freed, st_dup_loop fuel0 fuel copy alloc k h (hdo l2) (mkst m kn) = Some (h', r, freed) /\
    (forall b, h b <> None -> ~ In b (map fst m) -> h' b = h b) /\
    match r with
    | Some ns => exists m', ns = mkst m' (kn + N.of_nat (length l2))%N /\ dll h' m' /\ freed = [] /\
        copies copy (map snd l0) = Some (map snd m') /\ length m' = length l0 /\
        (forall a, In a (map fst m') -> In a (map fst m) \/ h a = None)
    | None => exists p q c, map snd l0 = p ++ q /\ copies copy p = Some c /\ Permutation c freed
    end.
Proof.
  assert (Hcs : forall p c v w, copies copy p = Some c -> copy v = Some w -> copies copy (p ++ [v]) = Some (c ++ [w])).
  { clear. induction p as [|x p IH]; intros c v w Hp Hv; cbn in *.
    - injection Hp as <-. rewrite Hv. reflexivity.
    - destruct (copy x); [|discriminate]. destruct (copies copy p) as [c'|] eqn:E; [|discriminate].
      injection Hp as <-. rewrite (IH c' v w eq_refl Hv). reflexivity. }
  induction l2 as [|[a d] l2 IH]; intros l1 m h fuel k kn pre E Hd Hm Hdis Hf Hf0 Hc Hp Hlen.
  - cbn [hdo]. exists h, (Some (mkst m kn)), []. split; [destruct fuel; reflexivity|]. split; auto.
    exists m. cbn [length]. rewrite N.add_0_r. rewrite app_nil_r in E. subst. repeat split; auto.
    apply Hm. apply Hm.
  - destruct fuel as [|fuel]; [cbn in Hf; lia|]. cbn [hdo fst st_dup_loop].
    rewrite (dll_cell h l0 a d l1 l2 Hd E). cbn [obind dat].
    assert (Hml : length m <= fuel0) by (rewrite E, app_length in Hf0; lia).
    destruct (copy d) as [v|] eqn:Ec.
    + destruct (alloc k h) as [n|] eqn:Ea.
      * pose proof (Hal k h n Ea) as Hn.
        destruct (push_ok h m kn n v Hm Hn) as (h1 & E1 & Hm1 & F1). rewrite E1. cbn [obind].
        assert (Hni : ~ In n (map fst l0)) by (intros Hi; exact (dll_alloc h l0 n Hd Hi Hn)).
        assert (Hd1 : dll h1 l0).
        { eapply dll_frame; [exact Hd|]. intros b Hb. apply F1. intros [<-|Hi]; [contradiction|]. exact (Hdis b Hb Hi). }
        rewrite (dll_cell h1 l0 a d l1 l2 Hd1 E). cbn [obind nxt].
        destruct (IH (l1 ++ [(a, d)]) (m ++ [(n, v)]) h1 fuel (S k) (kn + 1)%N (map snd (l1 ++ [(a, d)]))) as (h2 & r & freed & E2 & F2 & R2); auto.
        -- rewrite <- app_assoc. exact E.
        -- intros b Hb Hb2. rewrite map_app, in_app_iff in Hb2. destruct Hb2 as [Hb2|[<-|[]]]; [exact (Hdis b Hb Hb2)|contradiction].
        -- cbn in Hf; lia.
        -- rewrite !map_app. cbn. apply Hcs; auto.
        -- rewrite !app_length, Hlen. reflexivity.
        -- exists h2, r, freed. split; auto. split.
           ++ intros b Hb Hbm. assert (b <> n) by congruence.
              rewrite F2, F1; auto.
              ** intros [?|?]; [congruence|contradiction].
              ** rewrite F1; auto. intros [?|?]; [congruence|contradiction].
              ** rewrite map_app, in_app_iff. cbn. intros [?|[?|[]]]; [contradiction|congruence].
           ++ destruct r as [ns|]; [|exact R2].
              destruct R2 as (m' & -> & H1 & H2 & H3 & H4 & H5). exists m'. repeat split; auto.
              ** f_equal. cbn [length]. lia.
              ** apply H1.
              ** apply H1.
              ** intros b Hb. destruct (H5 b Hb) as [Hi|Hi].
                 --- rewrite map_app, in_app_iff in Hi. destruct Hi as [Hi|[<-|[]]]; auto.
                 --- destruct (in_dec N.eq_dec b (n :: map fst m)) as [[<-|Hi2]|Hi2]; auto. rewrite F1 in Hi; auto.
      * cbn [st_push obind]. destruct (destroy_ok m h kn fuel0 Hm Hml) as (h1 & E1 & F1 & F2).
        rewrite E1. cbn [obind fst snd]. exists h1, None, (v :: map snd m). split; auto. split; [intros; apply F1; auto|].
        exists (map snd (l1 ++ [(a, d)])), (map snd l2), (map snd m ++ [v]). split; [|split].
        -- rewrite <- map_app, <- app_assoc, E. reflexivity.
        -- rewrite map_app. cbn. apply Hcs; auto.
        -- symmetry. apply Permutation_cons_append.
    + destruct (destroy_ok m h kn fuel0 Hm Hml) as (h1 & E1 & F1 & F2).
      rewrite E1. cbn [obind fst snd]. exists h1, None, (map snd m). split; auto. split; [intros; apply F1; auto|].
      exists (map snd l1), (map snd ((a, d) :: l2)), (map snd m). split; [|split]; auto.
      rewrite <- map_app, E. reflexivity.
Qed.

Definition winv (w : world D) (f : nat -> list D) : Prop := exists L : nat -> list (N * D),
  (forall i, rev (map snd (L i)) = f i /\ dll (wmem w) (L i) /\ stk w i = mkst (L i) (N.of_nat (length (L i)))) /\
  (forall i j a, i <> j -> In a (map fst (L i)) -> In a (map fst (L j)) -> False).

Lemma winv_ext w f g : winv w f -> (forall i, f i = g i) -> winv w g.
Proof. intros (L & H1 & H2) E. exists L. split; auto. intros i. rewrite <- E. apply H1. Qed.

(** replacing stack [i] by [m] in a memory that agrees on every other stack *)
Lemma winv_set w (L : nat -> list (N * D)) i m h' g :
  (forall i, dll (wmem w) (L i) /\ stk w i = mkst (L i) (N.of_nat (length (L i)))) ->
  (forall i j a, i <> j -> In a (map fst (L i)) -> In a (map fst (L j)) -> False) ->
  dll h' m -> (forall j a, j <> i -> In a (map fst (L j)) -> h' a = wmem w a) ->
  (forall j a, j <> i -> In a (map fst (L j)) -> In a (map fst m) -> False) ->
  (forall j, g j = rev (map snd (upd_at L i m j))) ->
  winv (mkW h' (set_stk (stk w) i (mkst m (N.of_nat (length m))))) g.
Proof.
  intros H1 H2 H3 H4 H5 H6. exists (upd_at L i m). split.
  - intros j. rewrite H6. split; auto. cbn [wmem stk]. unfold set_stk, upd_at.
    destruct (Nat.eqb_spec j i) as [->|Hne]; [auto|]. destruct (H1 j) as (A & B). split; auto.
    eapply dll_frame; [exact A|]. intros a Ha. apply (H4 j a); auto.
  - intros j k a Hne. unfold upd_at. destruct (Nat.eqb_spec j i), (Nat.eqb_spec k i); subst; try congruence.
    + intros Ha Hb. exact (H5 k a ltac:(auto) Hb Ha).
    + intros Ha Hb. exact (H5 j a ltac:(auto) Ha Hb).
    + intros Ha Hb. exact (H2 j k a Hne Ha Hb).
Qed.

Lemma copies_rev copy (l c : list D) : copies copy l = Some c -> copies copy (rev l) = Some (rev c).
Proof.
  assert (Hcs : forall p c v w, copies copy p = Some c -> copy v = Some w -> copies copy (p ++ [v]) = Some (c ++ [w])).
  { clear. induction p as [|x p IH]; intros c v w Hp Hv; cbn in *.
    - injection Hp as <-. rewrite Hv. reflexivity.
    - destruct (copy x); [|discriminate]. destruct (copies copy p) as [c'|] eqn:E; [|discriminate].
      injection Hp as <-. rewrite (IH c' v w eq_refl Hv). reflexivity. }
  revert c; induction l as [|x l IH]; intros c H; cbn in *.
  - injection H as <-. reflexivity.
  - destruct (copy x) as [y|] eqn:Ey; [|discriminate]. destruct (copies copy l) as [c'|]; [|discriminate].
    injection H as <-. cbn. apply Hcs; auto.
Qed.

Lemma s_step_ok copy alloc (Hal : fresh_alloc alloc) w f o : winv w f ->
  exists w' out f', s_step copy alloc w o = Some (w', out) /\ s_spec copy f o out f' /\ winv w' f'.
Proof.
  intros HI. pose proof HI as HI0. destruct HI as (L & HL & Hdis).
  assert (HL2 : forall i, dll (wmem w) (L i) /\ stk w i = mkst (L i) (N.of_nat (length (L i)))) by (intros i; destruct (HL i); tauto).
  assert (Hfuel : forall i, N.to_nat (nr_node (stk w i)) = length (L i)).
  { intros i. rewrite (proj2 (HL2 i)). cbn [mkst nr_node]. apply Nat2N.id. }
  assert (Hlast : forall i, L i = [] \/ exists l a d, L i = l ++ [(a, d)] /\ f i = d :: rev (map snd l)).
  { intros i. destruct (last_case (L i)) as [E|(l & [a d] & E)]; auto. right. exists l, a, d. split; auto.
    destruct (HL i) as (E1 & _). rewrite <- E1, E, map_app, rev_app_distr. reflexivity. }
  assert (Hnil : forall i, L i = [] -> f i = []).
  { intros i E. destruct (HL i) as (E1 & _). rewrite <- E1, E. reflexivity. }
  assert (Hupd : forall i (m : list (N * D)) g, g = rev (map snd m) -> forall j, upd_at f i g j = rev (map snd (upd_at L i m j))).
  { intros i m g -> j. unfold upd_at. destruct (j =? i); auto. symmetry. apply HL. }
  destruct o as [i v|i|i|i|i|i|i j|i]; cbn [s_step]; rewrite ?Hfuel; destruct (HL i) as (Ef & Hd & Es).
  - destruct (alloc 0 (wmem w)) as [a|] eqn:Ea.
    + pose proof (Hal 0 (wmem w) a Ea) as Hn. rewrite Es.
      destruct (push_ok (wmem w) (L i) (N.of_nat (length (L i))) a v Hd Hn) as (h' & E & H1 & H2).
      rewrite E. cbn [obind]. eexists _, _, _. split; [reflexivity|]. split; [apply sp_push|].
      replace (N.of_nat (length (L i)) + 1)%N with (N.of_nat (length (L i ++ [(a, v)]))) by (rewrite app_length; cbn; lia).
      apply winv_set with (L := L); auto.
      * intros j b Hj Hb. apply H2. intros [<-|Hi]; [|exact (Hdis j i b Hj Hb Hi)].
        exact (dll_alloc (wmem w) (L j) a (proj1 (HL2 j)) Hb Hn).
      * intros j b Hj Hb. rewrite map_app, in_app_iff. intros [Hi|[<-|[]]]; [exact (Hdis j i b Hj Hb Hi)|].
        exact (dll_alloc (wmem w) (L j) a (proj1 (HL2 j)) Hb Hn).
      * apply Hupd. rewrite map_app, rev_app_distr, Ef. reflexivity.
    + cbn [st_push obind]. eexists _, _, _. split; [reflexivity|]. split; [apply sp_push_fail|].
      rewrite Es. apply winv_set with (L := L); auto.
      * intros j a Hj Ha Hb. exact (Hdis j i a Hj Ha Hb).
      * intros j. unfold upd_at. destruct (Nat.eqb_spec j i); subst; symmetry; apply HL.
  - destruct (Hlast i) as [E|(l & a & d & E & Efi)].
    + rewrite Es. unfold st_pop, mkst. rewrite E. cbn [top lasto rev hdo obind].
      eexists _, _, _. split; [reflexivity|].
      pose proof (sp_pop copy f i) as S. rewrite (Hnil i E) in S. split; [exact S|].
      apply (winv_set w L i [] (wmem w)); auto.
      * apply dll_nil.
    + rewrite Es. rewrite E in *. destruct (pop_ok (wmem w) l a d (N.of_nat (length (l ++ [(a, d)]))) Hd) as (h' & E1 & H1 & H2 & H3).
      rewrite E1. cbn [obind]. eexists _, _, _. split; [reflexivity|].
      pose proof (sp_pop copy f i) as S. rewrite Efi in S. cbn [hd_error tl] in S. split; [exact S|].
      replace (N.of_nat (length (l ++ [(a, d)])) - 1)%N with (N.of_nat (length l)) by (rewrite app_length; cbn; lia).
      apply winv_set with (L := L); auto.
      * intros j b Hj Hb. apply H2. intros Hi. apply (Hdis j i b Hj Hb). rewrite E, map_app, in_app_iff. cbn in *. tauto.
      * intros j b Hj Hb Hi. apply (Hdis j i b Hj Hb). rewrite E, map_app, in_app_iff. auto.
  - assert (E : st_top (wmem w) (stk w i) = Some (hd_error (f i))).
    { rewrite Es. unfold st_top, mkst. cbn [top]. destruct (Hlast i) as [E|(l & a & d & E & Efi)].
      - rewrite E, (Hnil i E). reflexivity.
      - rewrite E, lasto_snoc, Efi. cbn [fst]. rewrite (dll_cell _ _ a d l [] Hd E). reflexivity. }
    rewrite E. cbn [obind]. eexists _, _, _. split; [reflexivity|]. split; [apply sp_top|exact HI0].
  - eexists _, _, _. split; [reflexivity|].
    replace (st_is_empty (stk w i)) with (match f i with [] => true | _ => false end).
    2:{ rewrite Es, <- Ef. unfold st_is_empty. cbn [mkst nr_node]. destruct (L i) as [|x l] eqn:El; [reflexivity|].
        destruct (rev (map snd (x :: l))) eqn:Er.
        - apply (f_equal (@length _)) in Er. rewrite rev_length in Er. discriminate.
        - symmetry. apply N.eqb_neq. cbn. lia. }
    split; [apply sp_empty|exact HI0].
  - eexists _, _, _. split; [reflexivity|].
    replace (nr_node (stk w i)) with (N.of_nat (length (f i))).
    2:{ rewrite Es, <- Ef, rev_length, map_length. reflexivity. }
    split; [apply sp_count|exact HI0].
  - assert (E : st_iterate (length (L i)) (wmem w) (stk w i) = Some (f i)).
    { rewrite Es. unfold st_iterate, mkst. cbn [top]. unfold lasto.
      rewrite (walk_prev_ok (wmem w) (rev (L i)) []).
      - cbn [obind]. rewrite map_rev, Ef. reflexivity.
      - rewrite rev_involutive, app_nil_r. exact Hd.
      - rewrite rev_length. auto. }
    rewrite E. cbn [obind]. eexists _, _, _. split; [reflexivity|]. split; [apply sp_iterate|exact HI0].
  - unfold st_dup. destruct (alloc 0 (wmem w)) as [a0|] eqn:Ea0.
    2:{ cbn [obind]. eexists _, _, _. split; [reflexivity|]. split.
        - apply sp_dup_fail. exists [], (rev (f i)), []. repeat split; constructor.
        - destruct w; exact HI0. }
    rewrite Es. cbn [mkst bottom].
    destruct (dup_loop_ok copy alloc Hal (length (L i)) (L i) (L i) [] [] (wmem w) (length (L i)) 1 0%N [])
      as (h' & r & freed & E & F & R); auto.
    { apply dll_nil. }
    unfold st_empty. change (mkSt None None 0%N) with (mkst (@nil (N*D)) 0%N). rewrite E. cbn [obind].
    destruct r as [ns|].
    + destruct R as (m' & -> & Hm' & -> & Hcp & Hlen & Hfr).
      eexists _, _, _. split; [reflexivity|]. split.
      * apply sp_dup. rewrite <- Ef. apply copies_rev. exact Hcp.
      * rewrite N.add_0_l, <- Hlen. apply winv_set with (L := L); auto.
        -- intros k b Hk Hb. apply F; auto. exact (dll_alloc (wmem w) (L k) b (proj1 (HL2 k)) Hb).
        -- intros k b Hk Hb Hi. destruct (Hfr b Hi) as [[]|Hno].
           exact (dll_alloc (wmem w) (L k) b (proj1 (HL2 k)) Hb Hno).
    + destruct R as (p & q & c & E1 & E2 & E3). eexists _, _, _. split; [reflexivity|]. split.
      * apply sp_dup_fail. exists p, q, c. rewrite <- Ef, rev_involutive. auto.
      * exists L. split; [|exact Hdis]. intros k. cbn [wmem stk]. destruct (HL k) as (A & B & C). split; auto. split; auto.
        eapply dll_frame; [exact B|]. intros b Hb. apply F; auto. exact (dll_alloc (wmem w) (L k) b B Hb).
  - rewrite Es. destruct (destroy_ok (L i) (wmem w) (N.of_nat (length (L i))) (length (L i)) Hd (le_n _)) as (h' & E & H1 & H2).
    rewrite E. cbn [obind fst snd]. eexists _, _, _. split; [reflexivity|].
    replace (map snd (L i)) with (rev (f i)) by (rewrite <- Ef; apply rev_involutive).
    split; [apply sp_destroy|].
    apply (winv_set w L i [] h'); auto.
    + apply dll_nil.
    + intros j b Hj Hb. apply H1. intros Hi. exact (Hdis j i b Hj Hb Hi).
Qed.

Lemma s_run_ok copy alloc (Hal : forall n, fresh_alloc (alloc n)) : forall ops n w f, winv w f ->
  exists w' outs, s_run copy alloc n w ops = Some (w', outs) /\ s_spec_run copy f ops outs.
Proof.
  induction ops as [|o ops IH]; intros n w f HI; cbn [s_run].
  - exists w, []. split; auto. constructor.
  - destruct (s_step_ok copy (alloc n) (Hal n) w f o HI) as (w1 & out & f1 & E & HS & HI1).
    rewrite E. cbn [obind fst snd]. destruct (IH (S n) w1 f1 HI1) as (w2 & outs & E2 & HS2).
    rewrite E2. cbn [obind fst snd]. exists w2, (out :: outs). split; auto. econstructor; eauto.
Qed.

Lemma stacks_ok copy alloc h0 ops : (forall n k h a, alloc n k h = Some a -> h a = None) ->
  exists w' outs, s_run copy alloc 0 (mkW h0 (fun _ => st_empty)) ops = Some (w', outs) /\
    s_spec_run copy (fun _ => []) ops outs.
Proof.
  intros Hal. apply s_run_ok.
  - intros n k h a. apply Hal.
  - exists (fun _ => []). split; [|intros ? ? ? ? []]. intros i. cbn. split; auto. split; auto. apply dll_nil.
Qed.
End Stacks.

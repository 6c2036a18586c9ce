Require Import List Arith NArith ZArith Lia Bool Sorting.Permutation Sorting.Sorted.
Require Import ZifyBool ZifyNat ZifyN.
Require Import Verif.Base Verif.ChainModel Verif.RbModel Verif.RbSpec Verif.RbFindProofs Verif.RbProofs Verif.StrModel Verif.StrSpec Verif.StrProofs.
Require Import Verif.JsonNumModel Verif.JsonModel Verif.JsonSpec Verif.JsonProofs Verif.JsonEncProofs Verif.JsonTextProofs Verif.JsonPolicyProofs Verif.JsonObjModel Verif.JsonObjSpec.
Import ListNotations.
Open Scope N_scope.

Lemma same_iff a b : same a b = true <-> a = b.
Proof. unfold same. destruct (list_eq_dec N.eq_dec a b); split; congruence. Qed.
Lemma same_refl a : same a a = true. Proof. apply same_iff. reflexivity. Qed.
Lemma same_not a b : a <> b -> same a b = false.
Proof. intros H. destruct (same a b) eqn:E; [apply same_iff in E; contradiction|reflexivity]. Qed.

(** ** The comparison *)
Lemma cmpbytes_refl a : bytes a -> cmpbytes a a = 0%Z.
Proof.
  intros H. unfold cmpbytes. rewrite Nat.ltb_irrefl. destruct ((280 <? length a)%nat || negb (length a mod 4 =? 0)%nat) eqn:E.
  - apply memcmp_eq; reflexivity.
  - apply wordcmp_eq; auto. apply orb_false_iff in E as [_ E]. apply negb_false_iff, Nat.eqb_eq in E. exact E.
Qed.
Lemma cmpbytes_eq a b : bytes a -> bytes b -> cmpbytes a b = 0%Z -> a = b.
Proof.
  intros Ha Hb. unfold cmpbytes. destruct (Nat.ltb_spec (length b) (length a)); [discriminate|]. destruct (Nat.ltb_spec (length a) (length b)); [discriminate|].
  destruct ((280 <? length a)%nat || negb (length a mod 4 =? 0)%nat) eqn:E.
  - apply memcmp_eq. lia.
  - apply orb_false_iff in E as [_ E]. apply negb_false_iff, Nat.eqb_eq in E. intros C. apply wordcmp_eq in C; auto. lia.
Qed.

Section Obj.
Variable K V : Type.
Variable str : K -> mstr.
Hypothesis Hascii : forall k, ascii (s_bytes (str k)).
Hypothesis Haddr : forall a b, s_addr (str a) = s_addr (str b) -> s_bytes (str a) = s_bytes (str b).
Notation by_ k := (s_bytes (str k)).
Notation cmp := (kv_cmp str).

Lemma cmp_bytes a b : cmp a b = cmpbytes (by_ a) (by_ b).
Proof.
  unfold kv_cmp. destruct (N.eq_dec (s_addr (str a)) (s_addr (str b))) as [E|E]; [|apply strcmp_cmpbytes; exact E].
  rewrite (Haddr a b E), cmpbytes_refl by (apply ascii_bytes, Hascii). unfold mstrcmp. rewrite E, N.eqb_refl. reflexivity.
Qed.
Lemma cmp_zero a b : cmp a b = 0%Z <-> by_ a = by_ b.
Proof.
  rewrite cmp_bytes. split; [apply cmpbytes_eq; apply ascii_bytes, Hascii|]. intros ->. apply cmpbytes_refl. apply ascii_bytes, Hascii.
Qed.
Lemma cmp_preorder : preorder cmp.
Proof.
  split.
  - intros a b. rewrite !cmp_bytes. rewrite (cmpbytes_antisym (by_ a) (by_ b)) by apply Hascii. lia.
  - intros a b c. destruct (Z.eq_dec (cmp a b) 0) as [E|E].
    { apply cmp_zero in E. rewrite !cmp_bytes, E. tauto. }
    destruct (Z.eq_dec (cmp b c) 0) as [E2|E2].
    { apply cmp_zero in E2. rewrite !cmp_bytes, E2. tauto. }
    rewrite !cmp_bytes in *. intros H1 H2. pose proof (cmpbytes_trans (by_ a) (by_ b) (by_ c) (Hascii a) (Hascii b) (Hascii c)). lia.
Qed.

Notation Inv := (inv K cmp).
Definition members_of (o : obj K V) (l : list N) : list (list N * V) := map (fun a => (by_ (key (o_tree o) a), o_val o a)) l.
(** The tree holds the members [m]. *)
Definition holds (o : obj K V) (m : list (list N * V)) : Prop := exists s tr h, Inv (o_tree o) s tr h /\ idle _ (o_tree o) /\
  m = members_of o (order s) /\ NoDup (map fst m) /\ 0 < o_next o /\ Forall (fun a => a < o_next o /\ a <> 0) (order s).

Lemma new_holds t0 v0 : holds (obj_new t0 v0) [].
Proof.
  exists (RbSpec.mkS [] []), E, O. destruct (inv_new K cmp t0) as [I Id]. split; [exact I|]. split; [exact Id|]. split; [reflexivity|].
  split; [constructor|]. split; [reflexivity|constructor].
Qed.
Lemma sorted_in t s tr h a d : Inv t s tr h -> In (a, d) (sorted s) <-> In a (order s) /\ d = key t a.
Proof.
  intros I. rewrite (i_sorted _ _ _ _ _ _ I), keyof_in. split; intros [H1 H2]; (split; [|exact H2]).
  - eapply Permutation_in; [apply Permutation_sym, (i_perm _ _ _ _ _ _ I)|exact H1].
  - eapply Permutation_in; [apply (i_perm _ _ _ _ _ _ I)|exact H1].
Qed.
(** What the search finds. *)
Lemma search_finds (o : obj K V) s tr h k : Inv (o_tree o) s tr h -> idle _ (o_tree o) -> Forall (fun a => a < o_next o /\ a <> 0) (order s) ->
  (exists a, rb_search cmp (o_tree o) k = Some a /\ (a =? 0) = false /\ In a (order s) /\ by_ (key (o_tree o) a) = by_ k) \/
  (rb_search cmp (o_tree o) k = Some 0 /\ forall a, In a (order s) -> by_ (key (o_tree o) a) <> by_ k).
Proof.
  intros I Id Hf. destruct (r_step_ok K cmp cmp_preorder _ _ _ _ (RSearch k) I Id Logic.I) as (t' & out & tr' & h' & E1 & S1 & _ & _).
  cbn [r_step] in E1. destruct (rb_search cmp (o_tree o) k) as [a|]; [|discriminate]. cbn [obind] in E1. injection E1 as <- <-.
  inversion S1 as [| |k' a' d Hin Hc|k' Hn| | | | |]; subst.
  - left. exists a. apply (sorted_in _ _ _ _ _ _ I) in Hin as [Hin ->]. split; [reflexivity|]. rewrite Forall_forall in Hf.
    split; [apply N.eqb_neq; apply Hf; exact Hin|]. split; [exact Hin|]. symmetry. apply cmp_zero. exact Hc.
  - right. split; [reflexivity|]. intros a Ha C. apply (Hn a (key (o_tree o) a)); [apply (sorted_in _ _ _ _ _ _ I); auto|]. apply cmp_zero. congruence.
Qed.

(** Reading and changing the member list. *)
Lemma in_members (o : obj K V) l k v : In (k, v) (members_of o l) <-> exists a, In a l /\ by_ (key (o_tree o) a) = k /\ o_val o a = v.
Proof.
  unfold members_of. rewrite in_map_iff. split.
  - intros (a & E1 & Ha). injection E1 as <- <-. eauto.
  - intros (a & Ha & <- & <-). eauto.
Qed.
Lemma get_in k v (m : list (list N * V)) : NoDup (map fst m) -> In (k, v) m -> get k m = Some v.
Proof.
  induction m as [|[k' v'] m IH]; cbn [map fst get]; [intros _ []|]. intros Hn [C|C].
  - injection C as -> ->. rewrite same_refl. reflexivity.
  - inversion Hn as [|? ? H1 H2]; subst. rewrite same_not; [auto|]. intros ->. apply H1. apply (in_map fst _ _ C).
Qed.
Lemma get_none k (m : list (list N * V)) : ~ In k (map fst m) -> get k m = None.
Proof.
  induction m as [|[k' v'] m IH]; cbn [map fst get In]; [reflexivity|]. intros H. rewrite same_not by (intros ->; apply H; auto). apply IH. tauto.
Qed.
Lemma put_new k v (m : list (list N * V)) : ~ In k (map fst m) -> put k v m = m ++ [(k, v)].
Proof.
  induction m as [|[k' v'] m IH]; cbn [map fst put In app]; [reflexivity|]. intros H. rewrite same_not by (intros ->; apply H; auto). rewrite IH by tauto. reflexivity.
Qed.
Lemma put_keys k v (m : list (list N * V)) : In k (map fst m) -> map fst (put k v m) = map fst m.
Proof.
  induction m as [|[k' v'] m IH]; cbn [map fst put In]; [intros []|]. intros H. destruct (same k k') eqn:Es.
  - apply same_iff in Es. subst. reflexivity.
  - cbn [map fst]. rewrite IH; [reflexivity|]. destruct H as [->|H]; [rewrite same_refl in Es; discriminate|exact H].
Qed.
Lemma keys_of (o : obj K V) l : map fst (members_of o l) = map (fun a => by_ (key (o_tree o) a)) l.
Proof. unfold members_of. rewrite map_map. reflexivity. Qed.
Lemma nodup_map_inj {A B} (f : A -> B) l a b : NoDup (map f l) -> In a l -> In b l -> f a = f b -> a = b.
Proof.
  induction l as [|x l IH]; cbn [map]; [intros _ []|]. intros Hn Ha Hb E. inversion Hn as [|? ? H1 H2]; subst.
  destruct Ha as [<-|Ha], Hb as [<-|Hb]; auto.
  - exfalso. apply H1. rewrite E. apply in_map. exact Hb.
  - exfalso. apply H1. rewrite <- E. apply in_map. exact Ha.
Qed.
Lemma put_members (o : obj K V) l a k v : NoDup (map fst (members_of o l)) -> In a l -> by_ (key (o_tree o) a) = by_ k ->
  members_of (mkO (set_key (o_tree o) a k) (set_val (o_val o) a v) (o_next o)) l = put (by_ k) v (members_of o l).
Proof.
  rewrite keys_of. induction l as [|b l IH]; intros Hn Ha E; [destruct Ha|]. inversion Hn as [|? ? H1 H2]; subst. unfold members_of in *. cbn [map put fst].
  cbn [o_tree set_key key o_val]. unfold set_val in *. cbv beta. destruct (N.eqb_spec b a) as [->|Hba].
  - rewrite E, same_refl. f_equal. apply map_ext_in. intros c Hc. destruct (N.eqb_spec c a) as [->|]; [|reflexivity].
    exfalso. apply H1. apply in_map_iff. eauto.
  - destruct Ha as [->|Ha]; [congruence|]. rewrite same_not; [rewrite <- IH by auto; reflexivity|].
    intros C. apply H1. rewrite <- C, <- E. apply in_map_iff. eauto.
Qed.
Lemma filter_map_swap {A B} (g : A -> B) (f : B -> bool) (f' : A -> bool) l : (forall x, In x l -> f (g x) = f' x) -> filter f (map g l) = map g (filter f' l).
Proof.
  induction l as [|x l IH]; cbn [map filter]; [reflexivity|]. intros H. rewrite (H x (or_introl eq_refl)). rewrite IH by (intros; apply H; right; assumption).
  destruct (f' x); reflexivity.
Qed.
Lemma cut_members (o : obj K V) l a k : NoDup (map fst (members_of o l)) -> In a l -> by_ (key (o_tree o) a) = by_ k ->
  cut (by_ k) (members_of o l) = members_of o (drop_ids [a] l).
Proof.
  rewrite keys_of. intros Hn Ha E. unfold cut, members_of, drop_ids. apply filter_map_swap. intros b Hb. cbn [fst existsb]. rewrite orb_false_r. f_equal.
  destruct (N.eqb_spec b a) as [->|Hne]; [apply same_iff; congruence|]. apply same_not. intros C. apply Hne. apply (nodup_map_inj (fun a => by_ (key (o_tree o) a)) l); auto. cbn beta. congruence.
Qed.
Lemma cut_absent k (m : list (list N * V)) : ~ In k (map fst m) -> cut k m = m.
Proof.
  induction m as [|[k' v'] m IH]; cbn [map fst cut filter In]; [reflexivity|]. intros H. rewrite same_not by (intros ->; apply H; auto). cbn [negb]. f_equal. apply IH. tauto.
Qed.
Lemma nodup_cut k (m : list (list N * V)) : NoDup (map fst m) -> NoDup (map fst (cut k m)).
Proof.
  induction m as [|[k' v'] m IH]; cbn [map fst cut filter]; [auto|]. intros H. inversion H as [|? ? H1 H2]; subst. destruct (negb (same k k')); [|auto].
  cbn [map fst]. constructor; [|auto]. intros C. apply H1. apply in_map_iff in C as (p & <- & Hp). apply filter_In in Hp as [Hp _]. apply in_map. exact Hp.
Qed.
Lemma drop_ids_order (s : state K) a : Forall (fun x => In x (order s)) (drop_ids [a] (order s)).
Proof. apply Forall_forall. intros x Hx. apply drop_ids_in in Hx. tauto. Qed.
Lemma absent_key (o : obj K V) s k : (forall a, In a (order s) -> by_ (key (o_tree o) a) <> by_ k) -> ~ In (by_ k) (map fst (members_of o (@order K s))).
Proof. intros H C. rewrite keys_of in C. apply in_map_iff in C as (a & E & Ha). exact (H a Ha E). Qed.

Lemma update_holds o m k v : holds o m -> exists o', o_update str o k v = Some o' /\ holds o' (put (by_ k) v m).
Proof.
  intros (s & tr & h & I & Id & -> & Hn & Hx & Hf). unfold o_update.
  destruct (search_finds o s tr h k I Id Hf) as [(a & -> & Ha & Hin & Ek)|[-> Hno]]; cbn [obind].
  - rewrite Ha. eexists. split; [reflexivity|]. rewrite <- (put_members o (order s) a k v Hn Hin Ek).
    exists (RbSpec.mkS (keyof K (key (set_key (o_tree o) a k)) (inorder tr)) (order s)), tr, h. cbn [o_tree o_next order].
    destruct I as [W B So Ke Mi Dl Hd Tl Pe Nr]. split; [|split; [exact Id|split; [reflexivity|split; [|split; [exact Hx|exact Hf]]]]].
    + split; cbn [set_key lnk key RbModel.min chain head tail nr_node sorted order]; auto.
      clear - Ke Ek Haddr Hascii. unfold RbFindProofs.keyed in *. induction Ke as [|x l Hs IH Hfa]; constructor; [exact IH|].
      apply Forall_forall. rewrite Forall_forall in Hfa. intros y Hy. specialize (Hfa y Hy). unfold le_key in *. rewrite cmp_bytes in *.
      assert (Ex : forall z, by_ (if z =? a then k else key (o_tree o) z) = by_ (key (o_tree o) z)) by (intros z; destruct (N.eqb_spec z a) as [->|]; congruence).
      rewrite !Ex. exact Hfa.
    + rewrite (put_members o (order s) a k v Hn Hin Ek). rewrite put_keys; [exact Hn|]. rewrite keys_of. apply in_map_iff. eauto.
  - cbn [N.eqb]. assert (Hnew : ~ In (o_next o) (order s)) by (intros C; rewrite Forall_forall in Hf; specialize (Hf _ C); lia).
    destruct (rb_insert_ok K cmp cmp_preorder (o_tree o) s tr h (o_next o) k I) as (t' & tr' & h' & E1 & I1 & It & Dt); [lia| |].
    { rewrite (inv_ids _ _ _ _ _ _ I). intros C. apply Hnew. eapply Permutation_in; [apply Permutation_sym, (i_perm _ _ _ _ _ _ I)|exact C]. }
    rewrite E1. cbn [obind]. eexists. split; [reflexivity|].
    assert (Hkeys : forall a, In a (order s) -> key t' a = key (o_tree o) a).
    { intros a Ha. assert (Hin : In (a, key (o_tree o) a) (sorted s)) by (apply (sorted_in _ _ _ _ _ _ I); auto).
      assert (Hin' : In (a, key (o_tree o) a) (insert_sorted cmp (o_next o) k (sorted s))) by (clear - Hin; induction (sorted s) as [|[b e] l IH]; [destruct Hin|];
        cbn [insert_sorted]; destruct (cmp k e <? 0)%Z; [right; exact Hin|]; destruct Hin as [Hin|Hin]; [left; exact Hin|right; auto]).
      pose proof (proj1 (sorted_in _ _ _ _ a (key (o_tree o) a) I1) Hin') as [_ E]. congruence. }
    assert (Hknew : key t' (o_next o) = k).
    { assert (Hin' : In (o_next o, k) (insert_sorted cmp (o_next o) k (sorted s))) by (clear; induction (sorted s) as [|[b e] l IH]; cbn [insert_sorted]; [left; reflexivity|];
        destruct (cmp k e <? 0)%Z; [left; reflexivity|right; exact IH]).
      pose proof (proj1 (sorted_in _ _ _ _ (o_next o) k I1) Hin') as [_ E]. congruence. }
    pose proof (absent_key o s k Hno) as Habs.
    assert (Em : members_of (mkO t' (set_val (o_val o) (o_next o) v) (o_next o + 1)) (order s ++ [o_next o]) = put (by_ k) v (members_of o (order s))).
    { rewrite (put_new _ _ _ Habs). unfold members_of. rewrite map_app. cbn [map o_tree o_val]. unfold set_val at 2. rewrite N.eqb_refl, Hknew. f_equal.
      apply map_ext_in. intros a Ha. rewrite (Hkeys a Ha). unfold set_val. destruct (N.eqb_spec a (o_next o)) as [->|]; [contradiction|reflexivity]. }
    eexists _, tr', h'. cbn [o_tree o_next]. split; [exact I1|]. split; [destruct Id; split; congruence|]. split; [symmetry; exact Em|].
    split; [|split; [lia|cbn [order]]].
    + rewrite (put_new _ _ _ Habs), map_app. cbn [map fst]. apply (Permutation_NoDup (Permutation_cons_append _ _)). constructor; [exact Habs|exact Hn].
    + apply Forall_app. split; [eapply Forall_impl; [|exact Hf]; cbn beta; intros; lia|]. constructor; [lia|constructor].
Qed.
Lemma search_holds o m k : holds o m -> o_search str o k = Some (get (by_ k) m).
Proof.
  intros (s & tr & h & I & Id & -> & Hn & Hx & Hf). unfold o_search.
  destruct (search_finds o s tr h k I Id Hf) as [(a & -> & Ha & Hin & Ek)|[-> Hno]]; cbn [obind].
  - rewrite Ha. f_equal. symmetry. apply get_in; [exact Hn|]. apply in_members. eauto.
  - cbn [N.eqb]. f_equal. symmetry. apply get_none, absent_key. exact Hno.
Qed.
Lemma remove_holds o m k : holds o m -> exists o', o_remove str o k = Some o' /\ holds o' (cut (by_ k) m).
Proof.
  intros (s & tr & h & I & Id & -> & Hn & Hx & Hf). unfold o_remove.
  destruct (search_finds o s tr h k I Id Hf) as [(a & -> & Ha & Hin & Ek)|[-> Hno]]; cbn [obind].
  - rewrite Ha. assert (L : legal s (RDelete (K := K) a)).
    { cbn [legal]. rewrite (inv_ids _ _ _ _ _ _ I). eapply Permutation_in; [apply (i_perm _ _ _ _ _ _ I)|exact Hin]. }
    destruct (r_step_ok K cmp cmp_preorder _ _ _ _ (RDelete a) I Id L) as (t' & out & tr' & h' & E1 & _ & I1 & Id1). cbn [r_step spec_next] in *.
    destruct (rb_delete (o_tree o) a) as [t1|]; [|discriminate]. cbn [obind] in *. injection E1 as -> <-.
    eexists. split; [reflexivity|]. rewrite (cut_members o (order s) a k Hn Hin Ek).
    assert (Hkeys : forall b, In b (drop_ids [a] (order s)) -> key t' b = key (o_tree o) b).
    { intros b Hb. assert (Hin' : In (b, key (o_tree o) b) (drop a (sorted s))).
      { apply drop_ids_in in Hb as [Hb Hne]. apply filter_In. split; [apply (sorted_in _ _ _ _ _ _ I); auto|]. cbn [fst]. apply negb_true_iff, N.eqb_neq. intros ->. apply Hne. left. reflexivity. }
      pose proof (proj1 (sorted_in _ _ _ _ b (key (o_tree o) b) I1) Hin') as [_ E]. congruence. }
    eexists _, tr', h'. cbn [o_tree o_next]. split; [exact I1|]. split; [exact Id1|]. cbn [order].
    assert (Em : members_of (mkO t' (o_val o) (o_next o)) (drop_ids [a] (order s)) = members_of o (drop_ids [a] (order s))).
    { unfold members_of. apply map_ext_in. intros b Hb. cbn [o_tree o_val]. rewrite (Hkeys b Hb). reflexivity. }
    split; [symmetry; exact Em|]. split; [rewrite <- (cut_members o (order s) a k Hn Hin Ek); apply nodup_cut; exact Hn|]. split; [exact Hx|].
    apply Forall_forall. intros b Hb. apply drop_ids_in in Hb as [Hb _]. rewrite Forall_forall in Hf. auto.
  - cbn [N.eqb]. eexists. split; [reflexivity|]. rewrite (cut_absent _ _ (absent_key o s k Hno)). exists s, tr, h. repeat (split; [assumption || reflexivity|]). assumption.
Qed.
Lemma legal_visit_none l : forall f pr, legal_visit f (fun _ => []) l pr.
Proof.
  induction l as [|a l IH]; intros [|f] pr; cbn [legal_visit]; try exact Logic.I. split; [constructor|]. split; [intros x []|]. rewrite !drop_ids_nil. apply IH.
Qed.
Lemma spec_iterate s o out s' : spec cmp s o out s' ->
  match o, out with RIterate dels _, ONodes l _ => l = visit (length (order s)) dels (order s) | _, _ => True end.
Proof. intros H. destruct H; exact Logic.I || reflexivity. Qed.
Lemma iterate_holds o m : holds o m -> exists o', o_iterate str o = Some (o', m) /\ holds o' m.
Proof.
  intros (s & tr & h & I & Id & -> & Hn & Hx & Hf). unfold o_iterate.
  assert (L : legal s (RIterate (K := K) (fun _ => []) (fun _ => false))) by (split; [reflexivity|apply legal_visit_none]).
  destruct (r_step_ok K cmp cmp_preorder _ _ _ _ (RIterate (fun _ => []) (fun _ => false)) I Id L) as (t' & out & tr' & h' & E1 & S1 & I1 & Id1). cbn [r_step] in E1.
  destruct (rb_iterate (fun _ => []) (fun _ => false) (o_tree o)) as [[[t1 l] b]|]; [|discriminate]. cbn [obind] in *. injection E1 as -> <-.
  assert (El : l = order s). { rewrite (spec_iterate _ _ _ _ S1). apply visit_all. lia. }
  subst l. cbn [spec_next] in I1. rewrite visit_all in I1 by lia. cbv zeta in I1.
  assert (Eg : flat_map (fun _ : N => []) (order s) = ([] : list N)) by (clear; induction (order s); [reflexivity|assumption]). rewrite Eg in I1.
  rewrite drop_ids_nil in I1. rewrite (filter_id (fun p => negb (existsb (N.eqb (fst p)) []))) in I1 by reflexivity.
  assert (Hkeys : forall a, In a (order s) -> key t' a = key (o_tree o) a).
  { intros a Ha. assert (Hin : In (a, key (o_tree o) a) (sorted s)) by (apply (sorted_in _ _ _ _ _ _ I); auto).
    pose proof (proj1 (sorted_in _ _ _ _ a (key (o_tree o) a) I1) Hin) as [_ E]. congruence. }
  assert (Em : members_of (mkO t' (o_val o) (o_next o)) (order s) = members_of o (order s)).
  { unfold members_of. apply map_ext_in. intros b' Hb. cbn [o_tree o_val]. rewrite (Hkeys b' Hb). reflexivity. }
  eexists. split; [f_equal; f_equal; exact Em|]. eexists _, tr', h'. cbn [o_tree o_next]. split; [exact I1|]. split; [exact Id1|]. cbn [order].
  split; [symmetry; exact Em|]. auto.
Qed.

Lemma run_holds : forall ops o m, holds o m -> option_map snd (j_run str o ops) = Some (answers (fun k => by_ k) m ops).
Proof.
  induction ops as [|op ops IH]; intros o m Hh; [reflexivity|]. cbn [j_run]. destruct op as [k v|k|k|]; cbn [j_step answers].
  - destruct (update_holds o m k v Hh) as (o' & -> & Hh'). cbn [obind fst snd]. specialize (IH _ _ Hh'). destruct (j_run str o' ops) as [[o2 outs]|]; [|discriminate].
    cbn [obind option_map snd fst] in *. congruence.
  - rewrite (search_holds o m k Hh). cbn [obind fst snd]. specialize (IH _ _ Hh). destruct (j_run str o ops) as [[o2 outs]|]; [|discriminate].
    cbn [obind option_map snd fst] in *. congruence.
  - destruct (remove_holds o m k Hh) as (o' & -> & Hh'). cbn [obind fst snd]. specialize (IH _ _ Hh'). destruct (j_run str o' ops) as [[o2 outs]|]; [|discriminate].
    cbn [obind option_map snd fst] in *. congruence.
  - destruct (iterate_holds o m Hh) as (o' & -> & Hh'). cbn [obind fst snd]. specialize (IH _ _ Hh'). destruct (j_run str o' ops) as [[o2 outs]|]; [|discriminate].
    cbn [obind option_map snd fst] in *. congruence.
Qed.
Lemma object_ok t0 v0 (ops : list (jop K V)) : option_map snd (j_run str (obj_new t0 v0) ops) = Some (answers (fun k => by_ k) [] ops).
Proof. apply run_holds, new_holds. Qed.
End Obj.

(** ** Keys occur once *)
Lemma uniq_keys v : uniq v -> keys_once v.
Proof.
  intros H m Hp. assert (G : forall u w, part u w -> uniq w -> uniq u).
  { induction 1 as [w|m' k w u Hin _ IH|l w u Hin _ IH]; intros Hw; [exact Hw| |]; apply IH; inversion Hw as [| | | | | |? ? Hf|? Hf]; subst; rewrite Forall_forall in Hf; exact (Hf _ Hin). }
  specialize (G _ _ Hp H). inversion G. assumption.
Qed.
Lemma keys_uniq v : keys_once v -> uniq v.
Proof.
  induction v as [| | | |s|d|m IH|l IH] using json_induction; intros H; constructor.
  - apply H. constructor.
  - apply Forall_forall. intros [k v] Hin. rewrite Forall_forall in IH. apply (IH (k, v) Hin). intros m' Hp. apply H. eapply part_obj; eauto.
  - apply Forall_forall. intros v Hin. rewrite Forall_forall in IH. apply (IH v Hin). intros m' Hp. apply H. eapply part_arr; eauto.
Qed.
Section Once.
Variable look : list (list N) -> list N -> option nat.
Variable p : policy.
Variable term : bool.
Hypothesis Hlook : exact_look look.
Lemma upd_same_key (m : list (list N * json)) i k v : nth_error (map fst m) i = Some k -> map fst (upd m i (k, v)) = map fst m.
Proof.
  revert i. induction m as [|[k' v'] m IH]; intros [|i]; cbn [map fst nth_error upd]; try discriminate; intros H; [congruence|]. f_equal. auto.
Qed.
Lemma update_once m k v : NoDup (map fst m) -> Forall (fun q => uniq (snd q)) m -> uniq v ->
  NoDup (map fst (obj_update look m k v)) /\ Forall (fun q => uniq (snd q)) (obj_update look m k v).
Proof.
  intros Hn Hf Hv. unfold obj_update. destruct Hlook as [Hs Hc]. destruct (look (map fst m) k) as [i|] eqn:E.
  - split; [rewrite upd_same_key; [exact Hn|apply Hs; exact E]|]. clear - Hf Hv. revert i. induction Hf as [|q m Hq Hm IH]; intros [|i]; cbn [upd]; constructor; auto.
  - split; [|apply Forall_app; auto]. rewrite map_app. cbn [map fst]. apply (Permutation_NoDup (Permutation_cons_append _ _)). constructor; [apply Hc; exact E|exact Hn].
Qed.
Lemma parse_once f :
  (forall d k s v r, parse_json look p term f d k s = Ok (v, r) -> uniq v) /\
  (forall d m s v r, NoDup (map fst m) -> Forall (fun q => uniq (snd q)) m -> parse_obj look p term f d m s = Ok (v, r) -> uniq v) /\
  (forall d l s v r, Forall uniq l -> parse_arr look p term f d l s = Ok (v, r) -> uniq v).
Proof.
  induction f as [|f (IHj & IHo & IHa)]; [split; [|split]; intros; discriminate|]. split; [|split].
  - intros d k s v r. rewrite parse_json_S. destruct (skip s) as [|c t]; [intros H; injection H as <- <-; constructor|].
    destruct (c =? 123). { destruct t; [discriminate|]. destruct (exceeds _ _); [discriminate|]. apply IHo; constructor. }
    destruct (c =? 91). { destruct t; [discriminate|]. destruct (exceeds _ _); [discriminate|]. apply IHa; constructor. }
    destruct (c =? 34). { destruct t; [discriminate|]. intros H. apply rbind_ok in H as ([b r'] & E & H). injection H as <- <-. constructor. }
    destruct (is_digit c || (c =? 45)). { intros H. apply rbind_ok in H as ([b r'] & E & H). injection H as <- <-. constructor. }
    unfold parse_word. destruct (word _ _); [|destruct (word _ _); [|destruct (word _ _); [|discriminate]]]; intros H; injection H as <- <-; constructor.
  - intros d m s v r Hn Hf. rewrite parse_obj_S. destruct (skip s) as [|c t]; [destruct term; discriminate|]. destruct (c =? 125).
    { intros H. injection H as <- <-. constructor; assumption. }
    intros H. apply rbind_ok in H as ([kv s1] & E & H). destruct kv as [| | |key| | | |]; try discriminate. destruct s1 as [|x s1]; [discriminate|].
    destruct (skip (x :: s1)) as [|c1 [|y t1]]; try discriminate. destruct (c1 =? 58); [|discriminate].
    apply rbind_ok in H as ([v2 s2] & E2 & H). destruct (skip s2) as [|c2 t2]; [discriminate|]. cbv zeta in *.
    destruct (exceeds _ _); [discriminate|]. destruct (update_once m key v2 Hn Hf (IHj _ _ _ _ _ E2)) as [U1 U2].
    destruct (c2 =? 44).
    + destruct t2 as [|z t2]; [discriminate|]. exact (IHo _ _ _ _ _ U1 U2 H).
    + destruct (c2 =? 125); [|discriminate]. injection H as <- <-. constructor; assumption.
  - intros d l s v r Hf. rewrite parse_arr_S. destruct s as [|c t]; [discriminate|]. intros H. apply rbind_ok in H as ([v1 s1] & E & H).
    assert (Hv : uniq v1). { destruct (c =? 93); [injection E as <- <-; constructor|exact (IHj _ _ _ _ _ E)]. }
    destruct s1 as [|x s1]; [discriminate|]. cbv zeta in *. destruct (exceeds _ _); [discriminate|]. destruct (skip (x :: s1)) as [|c1 t1]; [discriminate|].
    destruct (c1 =? 44).
    + destruct t1 as [|z t1]; [discriminate|]. apply (IHa _ _ _ _ _) in H; [exact H|]. apply Forall_app. auto.
    + destruct (c1 =? 93); [|discriminate]. injection H as <- <-. constructor. apply Forall_app. auto.
Qed.
Lemma decode_once s v : decode look p term s = Ok v -> keys_once v.
Proof.
  unfold decode. intros H. apply rbind_ok in H as ([w r] & E & H). apply (proj1 (parse_once _)) in E. apply uniq_keys.
  destruct w; try discriminate; destruct r; try discriminate; injection H as <-; exact E.
Qed.

(** ** Paths *)
Lemma is_index_digits s n : is_index s = Some n -> Forall (fun c => 48 <= c <= 57) s.
Proof.
  revert n. induction s as [|c t IH]; intros n; [constructor|]. unfold is_index. cbn [fold_right]. fold (is_index t).
  destruct (is_index t) as [m|]; [|discriminate]. cbn [obind]. destruct ((c <? 48) || (57 <? c)) eqn:E; [discriminate|]. intros _. constructor; [lia|eauto].
Qed.
Lemma is_index_value s : Forall (fun c => 48 <= c <= 57) s -> is_index s = Some (dec_value (rev s) mod 2 ^ 64).
Proof.
  induction 1 as [|c t Hc Ht IH]; [reflexivity|]. unfold is_index. cbn [fold_right]. fold (is_index t). rewrite IH. cbn [obind].
  replace ((c <? 48) || (57 <? c)) with false by lia. f_equal. cbn [rev]. unfold dec_value. rewrite fold_left_app. cbn [fold_left].
  rewrite (N.mul_comm 10). rewrite N.add_mod by discriminate. rewrite N.mul_mod_idemp_l by discriminate. rewrite <- N.add_mod by discriminate. reflexivity.
Qed.
(** A step of digits reads the same in both directions and fits 64 bits. *)
Lemma obj_search_in m k v : NoDup (map fst m) -> (obj_search look m k = Some v <-> In (k, v) m).
Proof.
  intros Hn. unfold obj_search. destruct Hlook as [Hs Hc]. destruct (look (map fst m) k) as [i|] eqn:E; cbn [obind].
  - apply Hs in E. rewrite nth_error_map in E. destruct (nth_error m i) as [[k' v']|] eqn:En; [|discriminate]. cbn [option_map fst snd] in *. injection E as ->.
    apply nth_error_In in En. split.
    + intros H. injection H as <-. exact En.
    + intros H. f_equal. pose proof (nodup_map_inj fst m (k, v') (k, v) Hn En H eq_refl). congruence.
  - apply Hc in E. split; [discriminate|]. intros H. exfalso. apply E. apply (in_map fst _ _ H).
Qed.
Lemma walk_reach ps : Forall (fun p => p <> []) ps -> Forall even_step ps -> forall j w, keys_once j -> (walk look j ps = Some w <-> reach j ps w).
Proof.
  induction ps as [|q ps IH]; intros Hne He j w Hj; cbn [walk].
  - split; [intros H; injection H as <-; constructor|intros H; inversion H; reflexivity].
  - inversion Hne as [|? ? Hq Hne']; subst. inversion He as [|? ? Eq He']; subst. specialize (IH Hne' He').
    destruct j as [|m|l|s|d| | |]; try (split; [discriminate|intros H; inversion H]; fail).
    + assert (Hn : NoDup (map fst m)) by (apply Hj; constructor). split.
      * destruct (obj_search look m q) as [v|] eqn:E; [|discriminate]. cbn [obind]. intros H. apply (obj_search_in m q v Hn) in E.
        apply (r_member m q v); [exact E|]. apply IH; [|exact H]. intros m' Hp. apply Hj. eapply part_obj; eauto.
      * intros H. inversion H as [|m' k v ps' w' Hin Hr|]; subst. apply (obj_search_in m q v Hn) in Hin. rewrite Hin. cbn [obind]. apply IH; [|exact Hr].
        apply (obj_search_in m q v Hn) in Hin. intros m' Hp. apply Hj. eapply part_obj; eauto.
    + split.
      * destruct (is_index q) as [i|] eqn:E; [|discriminate]. cbn [obind]. pose proof (is_index_digits _ _ E) as Hd. rewrite (is_index_value _ Hd) in E.
        destruct (Eq (conj Hq Hd)) as [Er El]. rewrite Er, N.mod_small in E by exact El. injection E as <-.
        unfold arr_search. destruct (N.of_nat (length l) <=? dec_value q); [discriminate|].
        destruct (nth_error l (N.to_nat (dec_value q))) as [v|] eqn:En; [|discriminate]. cbn [obind]. intros H.
        apply (r_element l q v); [split; assumption|exact En|]. apply IH; [|exact H]. apply nth_error_In in En. intros m' Hp. apply Hj. eapply part_arr; eauto.
      * intros H. inversion H as [| |l' ds v ps' w' Hds En Hr]; subst. destruct (Eq Hds) as [Er El]. rewrite (is_index_value q (proj2 Hds)). cbn [obind].
        rewrite Er, N.mod_small by exact El. unfold arr_search.
        assert (L : (N.to_nat (dec_value q) < length l)%nat) by (apply nth_error_Some; congruence).
        destruct (N.leb_spec (N.of_nat (length l)) (dec_value q)); [lia|]. rewrite En. cbn [obind]. apply IH; [|exact Hr].
        apply nth_error_In in En. intros m' Hp. apply Hj. eapply part_arr; eauto.
Qed.
Lemma runs_nonempty (sep : N -> Prop) s ps : runs sep s ps -> Forall (fun p => p <> []) ps.
Proof. induction 1; auto. Qed.
Lemma path_ok j exp ps w : keys_once j -> runs (fun c => c = 46) exp ps -> Forall even_step ps -> (path_parse look j exp = Some w <-> reach j ps w).
Proof.
  intros Hj Hr He. unfold path_parse. destruct (slice_ok exp [46]) as (ps' & -> & Hr').
  assert (ps' = ps). { apply (runs_in_unique [46] exp); [exact Hr'|]. eapply runs_ext; [|exact Hr]. intros c. cbn [In]. intuition. }
  subst ps'. cbn [obind]. apply walk_reach; [exact (runs_nonempty _ _ _ Hr)|exact He|exact Hj].
Qed.
End Once.

(** The tree search on ASCII keys is exact: it answers what the list of keys says. *)
Fixpoint find_key (ks : list (list N)) (k : list N) : option nat :=
  match ks with [] => None | k' :: t => if same k k' then Some O else option_map S (find_key t k) end.
Lemma find_key_exact : exact_look find_key.
Proof.
  split.
  - intros ks k. induction ks as [|k' t IH]; intros i; cbn [find_key]; [discriminate|]. destruct (same k k') eqn:E.
    + intros H. injection H as <-. apply same_iff in E. subst. reflexivity.
    + destruct (find_key t k) as [j|]; [|discriminate]. intros H. injection H as <-. cbn [nth_error]. auto.
  - intros ks k. induction ks as [|k' t IH]; cbn [find_key]; [intros _ []|]. destruct (same k k') eqn:E; [discriminate|].
    destruct (find_key t k) as [j|]; [discriminate|]. intros _ [->|C]; [rewrite same_refl in E; discriminate|exact (IH eq_refl C)].
Qed.
Section TreeLook.
Variable K : Type.
Variable key : K -> list N.
Lemma answers_puts ks : forall (m : list (list N * nat)) i k, NoDup (map fst m ++ map key ks) ->
  answers key m (map (fun p => JUpdate (fst p) (snd p)) (combine ks (seq i (length ks))) ++ [JSearch k]) =
  repeat JDone (length ks) ++ [JFound (get (key k) (m ++ combine (map key ks) (seq i (length ks))))].
Proof.
  induction ks as [|a ks IH]; intros m i k Hn; cbn [combine length seq map app answers repeat]; [rewrite app_nil_r; reflexivity|].
  cbn [fst snd]. f_equal. cbn [map] in Hn. rewrite put_new; [|intros C; apply NoDup_remove_2 in Hn; apply Hn; apply in_or_app; auto].
  rewrite IH.
  - rewrite <- app_assoc. reflexivity.
  - rewrite map_app, <- app_assoc. exact Hn.
Qed.
Lemma get_find k ks : forall i, get k (combine ks (seq i (length ks))) = option_map (Nat.add i) (find_key ks k).
Proof.
  induction ks as [|a ks IH]; intros i; cbn [combine length seq get find_key]; [reflexivity|]. destruct (same k a); [cbn [option_map]; f_equal; lia|].
  rewrite IH. destruct (find_key ks k); cbn [option_map]; [f_equal; lia|reflexivity].
Qed.
End TreeLook.
Lemma tree_look_ok K (str : K -> mstr) t0 ks k : (forall k, ascii (s_bytes (str k))) ->
  (forall a b, s_addr (str a) = s_addr (str b) -> s_bytes (str a) = s_bytes (str b)) -> NoDup (map (fun k => s_bytes (str k)) ks) ->
  option_map snd (j_run str (obj_new t0 (fun _ => O)) (map (fun p => JUpdate (fst p) (snd p)) (combine ks (seq 0 (length ks))) ++ [JSearch k])) =
  Some (repeat JDone (length ks) ++ [JFound (find_key (map (fun k => s_bytes (str k)) ks) (s_bytes (str k)))]).
Proof.
  intros Ha Hd Hn. rewrite object_ok by assumption. rewrite answers_puts by exact Hn. cbn [app]. rewrite <- (map_length (fun k => s_bytes (str k)) ks) at 2.
  rewrite get_find. destruct (find_key _ _); reflexivity.
Qed.

(** The red-black tree refines the sorted sequence. *)
Require Import List Arith NArith ZArith Bool Lia Sorting.Sorted Sorting.Permutation.
Require Import ZifyBool ZifyNat ZifyN.
Require Import Verif.Base Verif.ChainModel Verif.ChainProofs Verif.RbModel Verif.RbSpec Verif.RbLinkProofs Verif.RbInsertProofs Verif.RbDeleteProofs Verif.RbUnlinkProofs Verif.RbFindProofs.
Import ListNotations.
Open Scope N_scope.

(** ** Lists of nodes *)
Definition units (l : list N) : list (N * unit) := map (fun a => (a, tt)) l.
Lemma units_app a b : units (a ++ b) = units a ++ units b.
Proof. apply map_app. Qed.
Lemma units_fst l : map fst (units l) = l.
Proof. unfold units. rewrite map_map. apply map_id. Qed.
Lemma units_hdo l : hdo (units l) = hd_error l.
Proof. destruct l; reflexivity. Qed.
Lemma drop_ids_in d l x : In x (drop_ids d l) <-> In x l /\ ~ In x d.
Proof.
  unfold drop_ids. rewrite filter_In. split; intros [H1 H2]; (split; [exact H1|]).
  - intros X. rewrite negb_true_iff in H2. rewrite <- not_true_iff_false in H2. apply H2. apply existsb_exists. exists x. split; [exact X|apply N.eqb_refl].
  - apply negb_true_iff, not_true_iff_false. intros X. apply existsb_exists in X. destruct X as (y & Hy & Ey). apply N.eqb_eq in Ey. subst. auto.
Qed.
Lemma drop_ids_app d a b : drop_ids d (a ++ b) = drop_ids d a ++ drop_ids d b.
Proof. apply filter_app. Qed.
Lemma filter_id {A} (f : A -> bool) l : (forall x, In x l -> f x = true) -> filter f l = l.
Proof.
  induction l as [|x l IH]; intros H; cbn [filter]; [reflexivity|]. rewrite (H x (or_introl eq_refl)), IH; [reflexivity|].
  intros y Hy. apply H. right. exact Hy.
Qed.
Lemma filter_len {A} (f : A -> bool) l : (length (filter f l) <= length l)%nat.
Proof. induction l as [|x l IH]; cbn [filter length]; [lia|]. destruct (f x); cbn [length]; lia. Qed.
Lemma drop_ids_none d l : (forall x, In x l -> ~ In x d) -> drop_ids d l = l.
Proof.
  intros H. apply filter_id. intros x Hx. apply negb_true_iff, not_true_iff_false. intros X. apply existsb_exists in X.
  destruct X as (y & Hy & Ey). apply N.eqb_eq in Ey. subst. exact (H _ Hx Hy).
Qed.
Lemma filter_filter {A} (f g : A -> bool) l : filter f (filter g l) = filter (fun x => g x && f x) l.
Proof. induction l as [|x l IH]; cbn [filter]; [reflexivity|]. destruct (g x); cbn [filter andb]; [destruct (f x)|]; congruence. Qed.
Lemma drop_ids_twice d1 d2 l : drop_ids d2 (drop_ids d1 l) = drop_ids (d1 ++ d2) l.
Proof. unfold drop_ids. rewrite filter_filter. apply filter_ext. intros x. rewrite existsb_app, negb_orb. reflexivity. Qed.
Lemma drop_ids_nil l : drop_ids [] l = l.
Proof. apply drop_ids_none. intros x _ []. Qed.
Lemma drop_ids_one n l1 l2 : NoDup (l1 ++ n :: l2) -> drop_ids [n] (l1 ++ n :: l2) = l1 ++ l2.
Proof.
  intros H. apply NoDup_remove_2 in H. rewrite drop_ids_app. f_equal.
  - apply drop_ids_none. intros x Hx [<-|[]]. apply H, in_app_iff. auto.
  - change (n :: l2) with ([n] ++ l2). rewrite drop_ids_app. replace (drop_ids [n] [n]) with (@nil N).
    + apply drop_ids_none. intros x Hx [<-|[]]. apply H, in_app_iff. auto.
    + unfold drop_ids. cbn [filter existsb]. rewrite N.eqb_refl. reflexivity.
Qed.
Lemma nodup_split_eq (n : N) l1 l2 m1 m2 : NoDup (l1 ++ n :: l2) -> l1 ++ n :: l2 = m1 ++ n :: m2 -> l1 = m1 /\ l2 = m2.
Proof.
  intros Nd E1. apply NoDup_remove_2 in Nd. destruct (app_split _ _ _ _ _ _ E1) as [(k & -> & ->)|[(-> & _ & ->)|(k & -> & ->)]]; auto; exfalso; apply Nd.
  - apply in_app_iff. right. apply in_app_iff. right. left. reflexivity.
  - apply in_app_iff. left. apply in_app_iff. right. left. reflexivity.
Qed.
Lemma drop_ids_nodup d l : NoDup l -> NoDup (drop_ids d l).
Proof. apply NoDup_filter. Qed.

Section Rb.
Variable K : Type.
Variable cmp : K -> K -> Z.
Hypothesis Hcmp : preorder cmp.
Notation rbtree := (rbtree K).
Notation state := (state K).
Notation keyed := (keyed K cmp).

Definition keyof (f : N -> K) (l : list N) : elems K := map (fun a => (a, f a)) l.
Lemma keyof_fst f l : map fst (keyof f l) = l.
Proof. unfold keyof. rewrite map_map. apply map_id. Qed.
Lemma keyof_ext f g l : (forall a, In a l -> f a = g a) -> keyof f l = keyof g l.
Proof. intros H. apply map_ext_in. intros a Ha. rewrite (H a Ha). reflexivity. Qed.
Lemma keyof_in f l a d : In (a, d) (keyof f l) <-> In a l /\ d = f a.
Proof.
  unfold keyof. rewrite in_map_iff. split.
  - intros (b & E1 & Hb). injection E1 as -> <-. auto.
  - intros [Ha ->]. exists a. auto.
Qed.
Lemma keyof_filter f (p : N -> bool) l : filter (fun x => p (fst x)) (keyof f l) = keyof f (filter p l).
Proof. induction l as [|a l IH]; cbn [keyof map filter fst]; [reflexivity|]. fold (keyof f l). rewrite IH. destruct (p a); reflexivity. Qed.
Lemma keyof_next f a l : next_of a (keyof f l) = next_id a l.
Proof. induction l as [|b l IH]; cbn [keyof map next_of next_id]; [reflexivity|]. fold (keyof f l). rewrite keyof_fst, IH. reflexivity. Qed.

Record inv (t : rbtree) (s : state) (tr : tree) (h : nat) : Prop := {
  i_whole : whole (lnk t) tr;
  i_rbt : rbt false h tr;
  i_sorted : sorted s = keyof (key t) (inorder tr);
  i_keyed : keyed (key t) (inorder tr);
  i_min : RbModel.min t = hd 0 (inorder tr);
  i_dll : dll (chain t) (units (order s));
  i_head : head t = hdo (units (order s));
  i_tail : tail t = lasto (units (order s));
  i_perm : Permutation (order s) (inorder tr);
  i_nr : nr_node t = N.of_nat (length (order s)) }.
Definition idle (t : rbtree) : Prop := iter t = None /\ del t = false.

Lemma inv_len t s tr h : inv t s tr h -> limit t = S (S (length (inorder tr))).
Proof. intros [? ? ? ? ? ? ? ? P Nr]. unfold limit. rewrite Nr, (Permutation_length P). lia. Qed.
Lemma inv_ids t s tr h : inv t s tr h -> map fst (sorted s) = inorder tr.
Proof. intros I. rewrite (i_sorted _ _ _ _ I). apply keyof_fst. Qed.
Lemma inv_nodup t s tr h : inv t s tr h -> NoDup (order s).
Proof. intros I. eapply Permutation_NoDup; [apply Permutation_sym, (i_perm _ _ _ _ I)|]. apply (whole_nodup _ _ (i_whole _ _ _ _ I)). Qed.

(** ** Insertion *)
Lemma insert_sorted_app n d l1 l2 : (forall x, In x l1 -> (0 <= cmp d (snd x))%Z) -> (forall x, In x l2 -> (cmp d (snd x) < 0)%Z) ->
  insert_sorted cmp n d (l1 ++ l2) = l1 ++ (n, d) :: l2.
Proof.
  intros H1 H2. induction l1 as [|[b e] l1 IH]; cbn [app insert_sorted].
  - destruct l2 as [|[b e] l2]; [reflexivity|]. cbn [insert_sorted]. pose proof (H2 (b, e) (or_introl eq_refl)) as X. cbn [snd] in X.
    destruct (Z.ltb_spec (cmp d e) 0); [reflexivity|lia].
  - pose proof (H1 (b, e) (or_introl eq_refl)) as X. cbn [snd] in X. destruct (Z.ltb_spec (cmp d e) 0); [lia|]. rewrite IH; [reflexivity|].
    intros x Hx. apply H1. right. exact Hx.
Qed.

Lemma keyed_ext f g l : (forall a, In a l -> f a = g a) -> keyed f l -> keyed g l.
Proof.
  intros H. unfold RbFindProofs.keyed. induction 1 as [|x l S IH Fa]; constructor.
  - apply IH. intros a Ha. apply H. right. exact Ha.
  - rewrite Forall_forall in *. intros y Hy. unfold le_key. rewrite <- (H x), <- (H y); [apply (Fa y Hy)|right; exact Hy|left; reflexivity].
Qed.

Theorem rb_insert_ok t s tr h n d : inv t s tr h -> n <> 0 -> ~ In n (map fst (sorted s)) ->
  exists t' tr' h', rb_insert cmp t n d = Some t' /\ inv t' (mkS (insert_sorted cmp n d (sorted s)) (order s ++ [n])) tr' h' /\
    iter t' = iter t /\ del t' = del t.
Proof.
  intros I Zn Hn. rewrite (inv_ids _ _ _ _ I) in Hn. pose proof (inv_len _ _ _ _ I) as Lm. destruct I as [W B So Ke Mi Dl Hd Tl Pe Nr].
  unfold rb_insert. cbv zeta. rewrite Lm. set (ky := set (key t) n d).
  assert (Kx : forall a, In a (inorder tr) -> key t a = ky a) by (intros a Ha; unfold ky; rewrite set_neq by (intros ->; auto); reflexivity).
  assert (Ke' : keyed ky (inorder tr)) by (eapply keyed_ext; [|exact Ke]; exact Kx).
  destruct (descend_ok K cmp Hcmp ky (lnk t) d tr [] (root (lnk t)) 0 false h false (S (S (length (inorder tr)))) W B (rbc_root h) eq_refl
    ltac:(reflexivity) Ke' ltac:(lia)) as (k & y & pc & l1 & l2 & E1 & G1 & K1 & Bf & Af & Io & C1 & C2).
  cbn [before after app] in Bf, Af. rewrite app_nil_r in Af. rewrite E1. cbn [obind].
  assert (Io2 : inorder (plug k E) = inorder tr) by (rewrite inorder_plug, Bf, Af, Io; reflexivity).
  assert (Kn : cntc n k = 0%nat).
  { assert (X : cnt n (plug k E) = 0%nat); [|rewrite cnt_plug in X; lia].
    pose proof (proj1 (cnt_in n (plug k E))) as X. rewrite Io2 in X. destruct (cnt n (plug k E)); [reflexivity|]. exfalso. apply Hn, X. lia. }
  assert (Kd : ky n = d) by (unfold ky; apply set_eq).
  assert (G2 : good (attach cmp (lnk t) ky n y) k (T true E n E) n y).
  { apply attach_ok; auto. destruct k as [|f k]; [exact Logic.I|]. rewrite Kd. cbn [before after] in Bf, Af.
    destruct (fl f).
    - symmetry. apply Z.ltb_lt, C2. rewrite <- Af. left. reflexivity.
    - symmetry. apply Z.ltb_ge, C1. rewrite <- Bf. apply in_app_iff. right. apply in_app_iff. right. left. reflexivity. }
  assert (Lk : (length k + 2 <= S (S (length (inorder tr))))%nat) by (pose proof (plug_size k E) as X; rewrite Io2 in X; cbn [inorder length] in X; lia).
  destruct (insert_fixup_ok (S (S (length (inorder tr)))) _ k E n E y 0 pc Lk G2 ltac:(repeat constructor) K1) as (m' & t' & E2 & W' & I' & h' & B').
  rewrite E2. cbn [obind]. rewrite inorder_plug in I'. cbn [inorder app] in I'. rewrite Bf, Af in I'.
  assert (Hn2 : ~ In n (map fst (units (order s)))).
  { rewrite units_fst. intros X. apply Hn. eapply Permutation_in; [exact Pe|exact X]. }
  destruct (chain_add_ok (hset (chain t) n (mkC tt None None)) (units (order s)) n (mkC tt None None)) as (c' & E3 & D3 & _).
  { eapply dll_frame; [exact Dl|]. intros a Ha. apply hset_neq. intros ->. auto. }
  { exact Hn2. }
  { apply hset_eq. }
  cbn [dat] in E3, D3. rewrite Hd, Tl, E3. cbn [obind].
  change (units (order s) ++ [(n, tt)]) with (units (order s) ++ units [n]) in *. rewrite <- units_app in *.
  eexists _, t', h'. split; [reflexivity|]. split; [|split; reflexivity].
  split; cbn [lnk key RbModel.min chain head tail nr_node sorted order]; auto.
  - rewrite So, (keyof_ext _ ky _ Kx), Io, I'. unfold keyof. rewrite !map_app. cbn [map]. fold (keyof ky l1). fold (keyof ky l2). rewrite Kd.
    apply insert_sorted_app; intros [b e] Hb; apply keyof_in in Hb; destruct Hb as [Hb ->]; cbn [snd]; auto.
  - rewrite I'. rewrite Io in Ke'. apply (keyed_app K cmp) in Ke'. destruct Ke' as (S1 & S2 & S3). apply (keyed_app K cmp). split; [exact S1|].
    split; [apply keyed_cons; split; [exact S2|]|].
    + intros b Hb. unfold le_key. rewrite Kd. specialize (C2 b Hb). lia.
    + intros a b Ha [<-|Hb]; [|auto]. unfold le_key. rewrite Kd. apply (cmp_flip K cmp Hcmp). auto.
  - rewrite I', Mi, Io. destruct l1 as [|a l1]; cbn [app hd].
    + destruct l2 as [|b l2]; cbn [hd N.eqb]; [reflexivity|].
      assert (Zb : b <> 0) by (intros ->; apply (proj2 (whole_nodup _ _ W)); rewrite Io; left; reflexivity).
      rewrite (proj2 (N.eqb_neq _ _) Zb). rewrite (proj2 (Z.ltb_lt _ _) (C2 b (or_introl eq_refl))). reflexivity.
    + assert (Za : a <> 0) by (intros ->; apply (proj2 (whole_nodup _ _ W)); rewrite Io; left; reflexivity).
      rewrite (proj2 (N.eqb_neq _ _) Za). rewrite (proj2 (Z.ltb_ge _ _) (C1 a (or_introl eq_refl))). reflexivity.
  - rewrite I'. eapply Permutation_trans; [apply Permutation_app_tail, Pe|]. rewrite Io, <- app_assoc. apply Permutation_app_head.
    apply Permutation_app_comm.
  - rewrite Nr, app_length. cbn [length]. lia.
Qed.

(** ** Deletion *)
Definition is_head (n : N) (l : list N) : bool := match l with [] => false | a :: _ => a =? n end.
Lemma drop_ids_head n l : NoDup l -> is_head n l = true -> drop_ids [n] l = tl l.
Proof.
  destruct l as [|a l]; [discriminate|]. cbn [is_head tl]. intros Nd H. apply N.eqb_eq in H. subst a. exact (drop_ids_one n [] l Nd).
Qed.

Theorem rb_delete_ok t s tr h n l0 rest : inv t s tr h -> In n (map fst (sorted s)) -> order s = l0 ++ rest -> iter t = hd_error rest ->
  exists t' tr' h', rb_delete t n = Some t' /\ inv t' (mkS (drop n (sorted s)) (drop_ids [n] (order s))) tr' h' /\
    iter t' = hd_error (drop_ids [n] rest) /\ del t' = del t || is_head n rest.
Proof.
  intros I Hn Or It. pose proof (inv_nodup _ _ _ _ I) as No. rewrite (inv_ids _ _ _ _ I) in Hn. pose proof (inv_len _ _ _ _ I) as Lm. destruct I as [W B So Ke Mi Dl Hd Tl Pe Nr].
  destruct (whole_nodup _ _ W) as [Nd Nz].
  unfold rb_delete. rewrite Lm. set (f := S (S (length (inorder tr)))).
  assert (Mn : (if n =? RbModel.min t then successor f (lnk t) n else Some (RbModel.min t)) = Some (hd 0 (drop_ids [n] (inorder tr)))).
  { rewrite Mi. destruct (inorder tr) as [|a l] eqn:El; [destruct Hn|]. cbn [hd]. destruct (N.eqb_spec n a) as [X|X].
    - subst a. rewrite (successor_ok _ tr h) by (auto; rewrite ?El; cbn [length] in *; try (left; reflexivity); lia). rewrite El.
      cbn [next_id]. rewrite N.eqb_refl. pose proof (drop_ids_one n [] l Nd) as Y. cbn [app] in Y. rewrite Y. reflexivity.
    - unfold drop_ids. cbn [filter existsb]. rewrite (proj2 (N.eqb_neq a n)) by auto. cbn [orb negb hd]. reflexivity. }
  rewrite Mn. cbn [obind].
  destruct (unlink_ok (lnk t) tr h n f W B Hn ltac:(unfold f; lia)) as (m' & tr' & l1 & l2 & E1 & W' & I1 & I2 & h' & B').
  rewrite E1. cbn [obind].
  assert (Dr : drop_ids [n] (inorder tr) = inorder tr') by (rewrite I1, I2; apply drop_ids_one; rewrite <- I1; exact Nd).
  assert (Hno : In n (order s)) by (eapply Permutation_in; [apply Permutation_sym, Pe|exact Hn]).
  apply in_split in Hno. destruct Hno as (o1 & o2 & Eo).
  assert (Cn : chain t n = Some (mkC tt (lasto (units o1)) (hdo (units o2)))).
  { eapply dll_cell; [exact Dl|]. rewrite Eo, units_app. reflexivity. }
  assert (Nr2 : NoDup rest) by (eapply nodup_app_r; rewrite <- Or; exact No).
  assert (Ih : (match iter t with
        | Some i => if i =? n then c <- chain t n ;; Some (nxt c, true) else Some (iter t, del t)
        | None => Some (iter t, del t)
        end) = Some (hd_error (drop_ids [n] rest), del t || is_head n rest)).
  { rewrite It. destruct rest as [|a rest]; cbn [hd_error is_head]; [rewrite orb_false_r; reflexivity|].
    destruct (N.eqb_spec a n) as [X|X].
    - subst a. rewrite Cn. cbn [obind nxt]. rewrite orb_true_r.
      assert (X : o2 = rest). { rewrite Eo in Or, No. exact (proj2 (nodup_split_eq _ _ _ _ _ No Or)). }
      subst o2. rewrite units_hdo. pose proof (drop_ids_one n [] rest Nr2) as Y. cbn [app] in Y. rewrite Y. reflexivity.
    - unfold drop_ids. cbn [filter existsb]. rewrite (proj2 (N.eqb_neq a n)) by auto. cbn [orb negb hd_error]. rewrite orb_false_r. reflexivity. }
  rewrite Ih. cbn [obind].
  assert (Eu : units (order s) = units o1 ++ (n, tt) :: units o2) by (rewrite Eo, units_app; reflexivity).
  rewrite Eu in Dl, Hd, Tl. destruct (chain_del_ok _ _ _ _ _ Dl) as (c' & E3 & D3 & _). rewrite Hd, Tl, E3. cbn [obind].
  rewrite <- units_app in *. rewrite Eo in No. assert (Do : drop_ids [n] (order s) = o1 ++ o2) by (rewrite Eo; apply drop_ids_one; exact No).
  eexists _, tr', h'. split; [reflexivity|]. split; [|split; reflexivity].
  rewrite Do. split; cbn [lnk key RbModel.min chain head tail nr_node sorted order]; auto.
  - rewrite So, <- Dr. unfold drop. rewrite (keyof_filter (key t) (fun a => negb (a =? n))). f_equal. apply filter_ext. intros a. cbn [existsb]. rewrite orb_false_r. reflexivity.
  - rewrite I2. rewrite I1 in Ke. apply (keyed_app K cmp) in Ke. destruct Ke as (S1 & S2 & S3). apply (keyed_cons K cmp) in S2. destruct S2 as [S2 S4].
    apply (keyed_app K cmp). split; [exact S1|]. split; [exact S2|]. intros a b Ha Hb. apply S3; [exact Ha|right; exact Hb].
  - rewrite Dr. reflexivity.
  - rewrite I2. rewrite Eo, I1 in Pe. eapply Permutation_app_inv; exact Pe.
  - rewrite Nr, Eo, !app_length. cbn [length]. lia.
Qed.

Lemma del_all_ok : forall ds t s tr h l0 rest, inv t s tr h -> NoDup ds -> incl ds (order s) -> order s = l0 ++ rest -> iter t = hd_error rest ->
  exists t' tr' h' l0', del_all t ds = Some t' /\
    inv t' (mkS (filter (fun p => negb (existsb (N.eqb (fst p)) ds)) (sorted s)) (drop_ids ds (order s))) tr' h' /\
    drop_ids ds (order s) = l0' ++ drop_ids ds rest /\ iter t' = hd_error (drop_ids ds rest) /\
    (forall a l2, rest = a :: l2 -> del t = false -> del t' = existsb (N.eqb a) ds).
Proof.
  induction ds as [|n ds IH]; intros t s tr h l0 rest I Nd Inc Or It; cbn [del_all].
  - exists t, tr, h, l0. split; [reflexivity|]. rewrite !drop_ids_nil. split; [|split; [exact Or|split; [exact It|intros a l2 _ X; exact X]]].
    replace (filter _ (sorted s)) with (sorted s) by (symmetry; apply filter_id; reflexivity). destruct s; exact I.
  - assert (Hn : In n (map fst (sorted s))).
    { rewrite (inv_ids _ _ _ _ I). eapply Permutation_in; [apply (i_perm _ _ _ _ I)|]. apply Inc. left. reflexivity. }
    destruct (rb_delete_ok t s tr h n l0 rest I Hn Or It) as (t1 & tr1 & h1 & E1 & I1 & It1 & D1). rewrite E1. cbn [obind].
    apply NoDup_cons_iff in Nd. destruct Nd as [Nn Nd].
    destruct (IH t1 _ tr1 h1 (drop_ids [n] l0) (drop_ids [n] rest) I1 Nd) as (t' & tr' & h' & l0' & E2 & I2 & O2 & It2 & D2).
    + cbn [order]. intros x Hx. apply drop_ids_in. split; [apply Inc; right; exact Hx|]. intros [<-|[]]. auto.
    + cbn [order]. rewrite Or. apply drop_ids_app.
    + exact It1.
    + cbn [order sorted] in *. rewrite !drop_ids_twice in *. cbn [app] in *. exists t', tr', h', l0'. split; [exact E2|].
      split; [|split; [exact O2|split; [exact It2|]]].
      * replace (filter (fun p => negb (existsb (N.eqb (fst p)) (n :: ds))) (sorted s)) with (filter (fun p : N * K => negb (existsb (N.eqb (fst p)) ds)) (drop n (sorted s))); [exact I2|].
        unfold drop. rewrite filter_filter. apply filter_ext. intros [a d]. cbn [fst existsb]. rewrite negb_orb. reflexivity.
      * intros a l2 -> Hd. rewrite Hd in D1. cbn [orb is_head] in D1. cbn [existsb]. destruct (N.eqb_spec a n) as [X|X]; cbn [orb].
        -- rewrite <- X in *. clear D2. assert (R1 : forall ds (t1 t' : rbtree), del_all t1 ds = Some t' -> del t1 = true -> del t' = true).
           { clear. induction ds as [|b ds IH]; intros t1 t' H Hd; cbn [del_all] in H; [congruence|].
             destruct (rb_delete t1 b) as [t2|] eqn:E1; cbn [obind] in H; [|discriminate]. apply (IH _ _ H).
             clear - E1 Hd. unfold rb_delete in E1.
             destruct (if b =? RbModel.min t1 then _ else _); cbn [obind] in E1; [|discriminate].
             destruct (unlink _ _ _); cbn [obind] in E1; [|discriminate].
             destruct (match iter t1 with Some _ => _ | None => _ end) as [[i dl]|] eqn:E2; cbn [obind] in E1; [|discriminate].
             destruct (chain_del _ _ _ _) as [[[c hd'] tl']|]; cbn [obind] in E1; [|discriminate]. injection E1 as <-. cbn [del].
             destruct (iter t1) as [i1|]; [|congruence]. destruct (i1 =? b); [|congruence]. destruct (chain t1 b); cbn [obind] in E2; congruence. }
           eapply R1; eauto.
        -- apply (D2 a (drop_ids [n] l2)); [|exact D1]. unfold drop_ids. cbn [filter existsb]. rewrite (proj2 (N.eqb_neq _ _) X). reflexivity.
Qed.

(** ** Iteration *)
Definition set_iter (t : rbtree) (i : option N) (d : bool) : rbtree :=
  mkT (lnk t) (key t) (RbModel.min t) (chain t) (head t) (tail t) i (nr_node t) d.
Lemma inv_set_iter t s tr h i d : inv t s tr h -> inv (set_iter t i d) s tr h.
Proof. intros []. split; auto. Qed.

Lemma iterate_ok dels stop : (forall a, stop a = false) -> forall rest vf fuel t s tr h l0, inv t s tr h -> del t = false -> iter t = hd_error rest ->
  order s = l0 ++ rest -> (length rest <= vf)%nat -> (length rest <= fuel)%nat -> legal_visit vf dels rest (order s) ->
  exists t' tr' h', let vs := visit vf dels rest in let gone := flat_map dels vs in
    iterate_loop fuel dels stop t = Some (t', vs, true) /\
    inv t' (mkS (filter (fun p => negb (existsb (N.eqb (fst p)) gone)) (sorted s)) (drop_ids gone (order s))) tr' h' /\ idle t'.
Proof.
  intros Hs. intros rest. remember (length rest) as ln eqn:Eln. revert rest Eln. induction ln as [ln IH] using lt_wf_ind. intros rest Eln vf fuel t s tr h l0 I Dl It Or Hv Hf L.
  destruct rest as [|a l2].
  - cbn [hd_error] in It. exists t, tr, h. cbv zeta.
    assert (Ev : visit vf dels [] = []) by (destruct vf; reflexivity). rewrite Ev. cbn [flat_map]. rewrite drop_ids_nil.
    replace (filter _ (sorted s)) with (sorted s) by (symmetry; apply filter_id; reflexivity).
    split; [|split; [destruct s; exact I|split; assumption]].
    destruct fuel; cbn [iterate_loop]; rewrite It; reflexivity.
  - cbn [hd_error] in It. cbn [length] in Eln. destruct vf as [|vf]; [lia|]. destruct fuel as [|fuel]; [lia|].
    cbn [legal_visit] in L. destruct L as (Nd & Inc & L). cbn [iterate_loop visit]. rewrite It, Hs.
    destruct (del_all_ok (dels a) t s tr h l0 (a :: l2) I Nd Inc Or It) as (t1 & tr1 & h1 & l1 & E1 & I1 & O1 & It1 & D1). rewrite E1. cbn [obind].
    specialize (D1 a l2 eq_refl Dl). pose proof (inv_nodup _ _ _ _ I) as No. rewrite Or in No.
    assert (Na : ~ In a l2) by (apply nodup_app_r in No; apply NoDup_cons_iff in No; tauto).
    assert (Ed : drop_ids (dels a) (a :: l2) = (if existsb (N.eqb a) (dels a) then [] else [a]) ++ drop_ids (dels a) l2).
    { unfold drop_ids. cbn [filter]. destruct (existsb (N.eqb a) (dels a)); reflexivity. }
    rewrite Ed in O1, It1. set (rest' := drop_ids (dels a) l2) in *.
    assert (St : exists l0', (if del t1 then Some (mkT (lnk t1) (key t1) (RbModel.min t1) (chain t1) (head t1) (tail t1) (iter t1) (nr_node t1) false)
                  else
                    i <- iter t1 ;; c <- chain t1 i ;;
                    Some (mkT (lnk t1) (key t1) (RbModel.min t1) (chain t1) (head t1) (tail t1) (nxt c) (nr_node t1) (del t1))) = Some (set_iter t1 (hd_error rest') false)
            /\ drop_ids (dels a) (order s) = l0' ++ rest').
    { rewrite D1. destruct (existsb (N.eqb a) (dels a)); cbn [app hd_error] in *.
      - exists l1. rewrite It1. split; [reflexivity|exact O1].
      - exists (l1 ++ [a]). rewrite It1. cbn [obind].
        assert (Ca : chain t1 a = Some (mkC tt (lasto (units l1)) (hdo (units rest')))).
        { eapply dll_cell; [apply (i_dll _ _ _ _ I1)|]. cbn [order]. rewrite O1, units_app. reflexivity. }
        rewrite Ca. cbn [obind nxt]. rewrite units_hdo. split; [reflexivity|]. rewrite <- app_assoc. exact O1. }
    destruct St as (l0' & -> & O2). cbn [obind].
    assert (Ll : (length rest' <= length l2)%nat) by (unfold rest', drop_ids; apply filter_len).
    destruct (IH (length rest') ltac:(lia) rest' eq_refl vf fuel (set_iter t1 (hd_error rest') false) _ tr1 h1 l0' (inv_set_iter _ _ _ _ _ _ I1) eq_refl eq_refl O2 ltac:(lia) ltac:(lia) L)
      as (t' & tr' & h' & E2 & I2 & Id). cbv zeta in *. rewrite E2. cbn [obind]. exists t', tr', h'. split; [reflexivity|]. split; [|exact Id].
    cbn [flat_map order sorted] in *. rewrite drop_ids_twice in I2.
    replace (filter (fun p => negb (existsb (N.eqb (fst p)) (dels a ++ flat_map dels (visit vf dels rest')))) (sorted s))
      with (filter (fun p : N * K => negb (existsb (N.eqb (fst p)) (flat_map dels (visit vf dels rest')))) (filter (fun p : N * K => negb (existsb (N.eqb (fst p)) (dels a))) (sorted s)));
      [exact I2|].
    rewrite filter_filter. apply filter_ext. intros [b d]. cbn [fst]. rewrite existsb_app, negb_orb. reflexivity.
Qed.

(** ** Release of all nodes *)
Lemma release_ok : forall l c fuel, dll c (units l) -> (length l <= fuel)%nat -> exists c', release fuel c (hdo (units l)) (lasto (units l)) = Some c'.
Proof.
  intros l. induction l as [|a l IH] using rev_ind; intros c fuel D Hf.
  - exists c. destruct fuel; reflexivity.
  - rewrite units_app in *. cbn [units map] in *. rewrite lasto_snoc. cbn [fst]. rewrite app_length in Hf. cbn [length] in Hf.
    destruct fuel as [|fuel]; [lia|]. cbn [release].
    destruct (chain_del_ok _ _ _ _ _ D) as (c' & E3 & D3 & _). rewrite lasto_snoc in E3. cbn [fst] in E3. fold (units l) in *. rewrite E3. cbn [obind]. rewrite app_nil_r in *. apply IH; [exact D3|lia].
Qed.

(** ** All calls *)
Lemma r_step_ok t s tr h o : inv t s tr h -> idle t -> legal s o ->
  exists t' out tr' h', r_step cmp t o = Some (t', out) /\ spec cmp s o out (spec_next cmp s o) /\ inv t' (spec_next cmp s o) tr' h' /\ idle t'.
Proof.
  intros I [It Dl] L. pose proof (inv_len _ _ _ _ I) as Lm. destruct o as [a d|a|k| |a| | |dels stop]; cbn [r_step legal spec_next] in *.
  - destruct L as [L1 L2]. destruct (rb_insert_ok t s tr h a d I L1 L2) as (t' & tr' & h' & E1 & I1 & It1 & D1). rewrite E1. cbn [obind].
    exists t', ONone, tr', h'. split; [reflexivity|]. split; [constructor|]. split; [exact I1|]. split; congruence.
  - destruct (rb_delete_ok t s tr h a (order s) [] I L ltac:(rewrite app_nil_r; reflexivity) It) as (t' & tr' & h' & E1 & I1 & It1 & D1). rewrite E1. cbn [obind].
    exists t', ONone, tr', h'. split; [reflexivity|]. split; [constructor|]. split; [exact I1|]. split; [exact It1|]. rewrite D1, Dl. reflexivity.
  - unfold rb_search. rewrite Lm. pose proof I as [W B So Ke Mi Dll Hd Tl Pe Nr].
    destruct (search_ok K cmp Hcmp (key t) (lnk t) k tr 0 (root (lnk t)) (S (S (length (inorder tr))))) as [(a & E1 & I1 & C1)|[E1 C1]].
    + apply W.
    + exact Ke.
    + pose proof (height_size tr). lia.
    + rewrite E1. cbn [obind]. exists t, (ONode a), tr, h. split; [reflexivity|]. split; [|split; [exact I|split; assumption]].
      apply (sp_found _ _ _ _ a (key t a)); [|exact C1]. rewrite So. apply keyof_in. auto.
    + rewrite E1. cbn [obind]. exists t, (ONode 0), tr, h. split; [reflexivity|]. split; [|split; [exact I|split; assumption]].
      apply sp_absent. intros a d Ha. rewrite So in Ha. apply keyof_in in Ha. destruct Ha as [Ha ->]. auto.
  - exists t, (ONode (RbModel.min t)), tr, h. split; [reflexivity|]. split; [|split; [exact I|split; assumption]].
    rewrite (i_min _ _ _ _ I), <- (inv_ids _ _ _ _ I). apply sp_min.
  - rewrite (inv_ids _ _ _ _ I) in L. rewrite (successor_ok _ _ _ _ _ (i_whole _ _ _ _ I) (i_rbt _ _ _ _ I) L) by (rewrite Lm; lia). cbn [obind].
    exists t, (ONode (next_id a (inorder tr))), tr, h. split; [reflexivity|]. split; [|split; [exact I|split; assumption]].
    rewrite <- (keyof_next (key t)), <- (i_sorted _ _ _ _ I). apply sp_successor.
  - exists t, (ONum (nr_node t)), tr, h. split; [reflexivity|]. split; [|split; [exact I|split; assumption]].
    rewrite (i_nr _ _ _ _ I), (Permutation_length (i_perm _ _ _ _ I)), <- (inv_ids _ _ _ _ I), map_length. apply sp_count.
  - unfold rb_reset. destruct (release_ok (order s) (chain t) (limit t) (i_dll _ _ _ _ I)) as (c' & E1).
    { rewrite Lm, (Permutation_length (i_perm _ _ _ _ I)). lia. }
    rewrite (i_head _ _ _ _ I), (i_tail _ _ _ _ I), E1. cbn [obind]. eexists _, _, E, O. split; [reflexivity|]. split; [constructor|].
    split; [|split; reflexivity]. split; cbn [lnk key RbModel.min chain head tail nr_node sorted order units map hdo lasto rev length inorder keyof]; auto.
    + split; [split; reflexivity|]. split; [reflexivity|]. split; [intros x; cbn [cntc cnt]; lia|]. apply (i_whole _ _ _ _ I).
    + constructor.
    + constructor.
    + apply dll_nil.
  - destruct L as [Hs L]. unfold rb_iterate.
    destruct (iterate_ok dels stop Hs (order s) (length (order s)) (limit t) (set_iter t (head t) (del t)) s tr h [] (inv_set_iter _ _ _ _ _ _ I) Dl) as (t' & tr' & h' & E1 & I1 & Id); auto.
    { cbn [set_iter iter]. rewrite (i_head _ _ _ _ I). apply units_hdo. }
    { rewrite Lm, (Permutation_length (i_perm _ _ _ _ I)). lia. }
    cbv zeta in *. unfold set_iter in E1. rewrite E1. cbn [obind]. eexists t', _, tr', h'. split; [reflexivity|]. split; [apply (sp_iterate K cmp s dels stop)|].
    split; [exact I1|exact Id].
Qed.

Lemma r_run_ok : forall ops t s tr h, inv t s tr h -> idle t -> legal_run cmp s ops ->
  exists t' outs tr' h', r_run cmp t ops = Some (t', outs) /\ spec_run cmp s ops outs (fold_left (spec_next cmp) ops s) /\
    inv t' (fold_left (spec_next cmp) ops s) tr' h' /\ idle t'.
Proof.
  induction ops as [|o ops IH]; intros t s tr h I Id L; cbn [r_run legal_run fold_left] in *.
  - exists t, [], tr, h. split; [reflexivity|]. split; [constructor|]. auto.
  - destruct L as [L1 L2]. destruct (r_step_ok t s tr h o I Id L1) as (t1 & out & tr1 & h1 & E1 & S1 & I1 & Id1). rewrite E1. cbn [obind fst snd].
    destruct (IH t1 _ tr1 h1 I1 Id1 L2) as (t' & outs & tr' & h' & E2 & S2 & I2 & Id2). rewrite E2. cbn [obind fst snd].
    exists t', (out :: outs), tr', h'. split; [reflexivity|]. split; [econstructor; eauto|]. auto.
Qed.

Lemma inv_new t0 : inv (rb_new t0) (mkS [] []) E 0 /\ idle (rb_new t0).
Proof.
  split; [|split; reflexivity]. split; cbn; auto; try constructor.
  - split; reflexivity.
  - split; [reflexivity|]. split; [intros x; cbn; lia|]. reflexivity.
  - apply NoDup_nil.
  - intros [|] ? ? ? H; discriminate.
Qed.
End Rb.

(** ** Statements for RbProps *)
Lemma refines_ok : forall (K : Type) (cmp : K -> K -> Z) (t0 : rbtree K) (ops : list (rop K)), preorder cmp -> legal_run cmp (mkS [] []) ops ->
  exists t outs s, r_run cmp (rb_new t0) ops = Some (t, outs) /\ spec_run cmp (mkS [] []) ops outs s.
Proof.
  intros K cmp t0 ops Hc L. destruct (inv_new K cmp t0) as [I Id].
  destruct (r_run_ok K cmp Hc ops _ _ _ _ I Id L) as (t' & outs & tr' & h' & E1 & S1 & _). eauto.
Qed.
Lemma balance_ok : forall (K : Type) (cmp : K -> K -> Z) (t0 : rbtree K) (ops : list (rop K)), preorder cmp -> legal_run cmp (mkS [] []) ops ->
  exists t outs tr h, r_run cmp (rb_new t0) ops = Some (t, outs) /\
    rep (lnk t) 0 (root (lnk t)) tr /\ rbt false h tr /\
    inorder tr = map fst (sorted (fold_left (spec_next cmp) ops (mkS [] []))) /\
    (height tr <= 2 * Nat.log2 (length (inorder tr) + 1))%nat /\
    forall k fuel, (2 * Nat.log2 (length (inorder tr) + 1) < fuel)%nat -> search cmp fuel (lnk t) (key t) k (root (lnk t)) = rb_search cmp t k.
Proof.
  intros K cmp t0 ops Hc L. destruct (inv_new K cmp t0) as [I Id].
  destruct (r_run_ok K cmp Hc ops _ _ _ _ I Id L) as (t' & outs & tr' & h' & E1 & _ & I' & _).
  exists t', outs, tr', h'. split; [exact E1|]. pose proof (i_whole _ _ _ _ _ _ I') as W. pose proof (i_rbt _ _ _ _ _ _ I') as B.
  pose proof (balanced_height _ _ B) as Hh. split; [apply W|]. split; [exact B|]. split; [symmetry; exact (inv_ids _ _ _ _ _ _ I')|]. split; [exact Hh|].
  intros k fuel Hf. unfold rb_search. rewrite (inv_len _ _ _ _ _ _ I').
  pose proof (height_size tr') as Hs.
  assert (Mono : forall f1 f2 x a, search cmp f1 (lnk t') (key t') k x = Some a -> (f1 <= f2)%nat -> search cmp f2 (lnk t') (key t') k x = Some a).
  { clear. induction f1 as [|f1 IH]; intros f2 x a H Hf; [discriminate|]. destruct f2 as [|f2]; [lia|]. cbn [search] in *.
    destruct (x =? 0); [exact H|]. destruct (cmp k (key t' x) =? 0)%Z; [exact H|]. apply IH; [exact H|lia]. }
  assert (X : exists a, search cmp (S (height tr')) (lnk t') (key t') k (root (lnk t')) = Some a).
  { destruct (search_ok K cmp Hc (key t') (lnk t') k tr' 0 (root (lnk t')) (S (height tr'))) as [(a & E2 & _)|[E2 _]]; eauto.
    - apply W.
    - apply (i_keyed _ _ _ _ _ _ I'). }
  destruct X as (a & X). rewrite (Mono _ fuel _ _ X) by lia. symmetry. apply (Mono _ _ _ _ X). lia.
Qed.

Lemma visit_all : forall l f, (length l <= f)%nat -> visit f (fun _ => []) l = l.
Proof.
  induction l as [|a l IH]; intros f Hf; (destruct f as [|f]; [cbn [length] in Hf; try lia; reflexivity|]); cbn [visit]; [reflexivity|].
  rewrite drop_ids_nil, IH; [reflexivity|cbn [length] in Hf; lia].
Qed.
Lemma iteration_ok : forall (K : Type) (cmp : K -> K -> Z) (t0 : rbtree K) (ops : list (rop K)), preorder cmp -> legal_run cmp (mkS [] []) ops ->
  exists t outs, r_run cmp (rb_new t0) (ops ++ [RIterate (fun _ => []) (fun _ => false)]) = Some (t, outs) /\
    let s := fold_left (spec_next cmp) ops (mkS [] []) in
    last outs ONone = ONodes (order s) true /\ NoDup (order s) /\ Permutation (order s) (map fst (sorted s)).
Proof.
  intros K cmp t0 ops Hc L. destruct (inv_new K cmp t0) as [I Id].
  destruct (r_run_ok K cmp Hc ops _ _ _ _ I Id L) as (t1 & outs1 & tr1 & h1 & E1 & _ & I1 & Id1).
  set (s := fold_left (spec_next cmp) ops (mkS [] [])) in *.
  assert (Lv : forall f l p, legal_visit f (fun _ => []) l p).
  { induction f as [|f IH]; intros l p; cbn [legal_visit]; [exact Logic.I|]. destruct l; [exact Logic.I|]. split; [constructor|]. split; [intros x []|apply IH]. }
  destruct (r_step_ok K cmp Hc t1 s tr1 h1 (RIterate (fun _ => []) (fun _ => false)) I1 Id1 (conj (fun _ => eq_refl) (Lv _ _ _))) as (t2 & out & tr2 & h2 & E2 & S2 & _).
  exists t2, (outs1 ++ [out]). split.
  - clear - E1 E2. revert outs1 E1. generalize (rb_new t0). induction ops as [|o ops IH]; intros t outs1 E1; cbn [r_run app] in *.
    + injection E1 as -> <-. rewrite E2. reflexivity.
    + destruct (r_step cmp t o) as [[t3 out3]|]; cbn [obind fst snd] in *; [|discriminate]. destruct (r_run cmp t3 ops) as [[t4 outs4]|] eqn:E4; cbn [obind fst snd] in *; [|discriminate].
      injection E1 as -> <-. rewrite (IH _ _ E4). reflexivity.
  - cbv zeta. rewrite last_last. split; [|split; [exact (inv_nodup _ _ _ _ _ _ I1)|rewrite (inv_ids _ _ _ _ _ _ I1); exact (i_perm _ _ _ _ _ _ I1)]].
    rewrite <- (visit_all (order s) (length (order s))) at 1 by lia. inversion S2; subst. reflexivity.
Qed.

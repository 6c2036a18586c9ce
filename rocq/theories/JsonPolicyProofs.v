Require Import List Arith NArith ZArith Lia Bool SpecFloat.
Require Import ZifyBool ZifyNat ZifyN.
Require Import Verif.Base Verif.JsonNumModel Verif.JsonModel Verif.JsonSpec Verif.JsonProofs Verif.JsonEncProofs.
Import ListNotations.
Open Scope N_scope.

(** The limits on everything but the depth. *)
Inductive kept (p : policy) : json -> Prop :=
| k_none : kept p JNone | k_true : kept p JTrue | k_false : kept p JFalse | k_null : kept p JNull
| k_num d : kept p (JNum d)
| k_str s : within (p_str p) (N.of_nat (length s)) -> kept p (JStr s)
| k_obj m : within (p_obj p) (N.of_nat (length m)) -> Forall (fun q => within (p_key p) (N.of_nat (length (fst q)))) m ->
    Forall (fun q => kept p (snd q)) m -> kept p (JObj m)
| k_arr l : within (p_arr p) (N.of_nat (length l)) -> Forall (kept p) l -> kept p (JArr l).
Lemma kept_part p u v : part u v -> kept p v -> kept p u.
Proof.
  induction 1 as [v|m k v u Hin _ IH|l v u Hin _ IH]; intros H; [exact H| |]; apply IH; inversion H; subst.
  - match goal with Hf : Forall (fun q => kept p (snd q)) m |- _ => rewrite Forall_forall in Hf; exact (Hf _ Hin) end.
  - match goal with Hf : Forall (kept p) l |- _ => rewrite Forall_forall in Hf; exact (Hf _ Hin) end.
Qed.
Lemma kept_obeys p v : obeys p v <-> within (p_depth p) (depth v) /\ kept p v.
Proof.
  split.
  - intros (Hd & Hs & Ha & Ho). split; [exact Hd|]. clear Hd. revert Hs Ha Ho.
    induction v as [| | | |s|d|m IH|l IH] using json_induction; intros Hs Ha Ho; try constructor.
    + apply Hs. constructor.
    + apply Ho. constructor.
    + apply Ho. constructor.
    + apply Forall_forall. intros [k v] Hin. rewrite Forall_forall in IH.
      apply (IH (k, v) Hin); intros; [apply Hs|apply Ha|apply Ho]; eapply part_obj; eauto.
    + apply Ha. constructor.
    + apply Forall_forall. intros v Hin. rewrite Forall_forall in IH.
      apply (IH v Hin); intros; [apply Hs|apply Ha|apply Ho]; eapply part_arr; eauto.
  - intros (Hd & Hk). split; [exact Hd|]. split; [|split].
    + intros s Hp. pose proof (kept_part p _ _ Hp Hk) as H. inversion H. assumption.
    + intros s Hp. pose proof (kept_part p _ _ Hp Hk) as H. inversion H. assumption.
    + intros s Hp. pose proof (kept_part p _ _ Hp Hk) as H. inversion H. auto.
Qed.
Lemma exceeds_within l n : exceeds l n = false <-> within l n.
Proof. unfold exceeds, within. lia. Qed.
Lemma within_zero l : within l 0. Proof. right. lia. Qed.
Lemma within_max l a xs : within l a -> Forall (fun x => within l (a + x)) xs -> within l (a + fold_right N.max 0 xs).
Proof.
  intros Ha H. induction H as [|x xs Hx Hxs IH]; cbn [fold_right]; [rewrite N.add_0_r; exact Ha|].
  destruct (N.max_spec x (fold_right N.max 0 xs)) as [[_ ->]|[_ ->]]; assumption.
Qed.
Lemma max_within l a xs : within l (a + fold_right N.max 0 xs) -> within l a /\ Forall (fun x => within l (a + x)) xs.
Proof.
  intros H. split; [unfold within in *; lia|]. revert H. induction xs as [|x xs IH]; intros H; constructor; cbn [fold_right] in H.
  - unfold within in *. lia.
  - apply IH. unfold within in *. lia.
Qed.

Section Limits.
Variable look : list (list N) -> list N -> option nat.
Variable p : policy.
Variable term : bool.

(** A member list that keeps to the limits, [d] levels deep. *)
Definition kept_at (d : N) (v : json) : Prop := kept p v /\ within (p_depth p) (d + depth v).
Definition kept_members (d : N) (m : list (list N * json)) : Prop := within (p_obj p) (N.of_nat (length m)) /\
  Forall (fun q => within (p_key p) (N.of_nat (length (fst q))) /\ kept_at (d + 1) (snd q)) m.
Lemma kept_obj d m : within (p_depth p) (d + 1) -> kept_members d m -> kept_at d (JObj m).
Proof.
  intros Hd (Hl & Hm). split.
  - constructor; [exact Hl| |]; eapply Forall_impl; try exact Hm; cbn beta; intros q (H1 & H2 & H3); assumption.
  - cbn [depth]. rewrite N.add_assoc. apply within_max; [exact Hd|]. apply Forall_map. eapply Forall_impl; [|exact Hm]. cbn beta. intros q (H1 & H2 & H3). exact H3.
Qed.
Lemma kept_obj_inv d m : kept_at d (JObj m) -> within (p_depth p) (d + 1) /\ kept_members d m.
Proof.
  intros (Hk & Hd). cbn [depth] in Hd. rewrite N.add_assoc in Hd. apply max_within in Hd as (Hd & Hf). split; [exact Hd|].
  inversion Hk as [| | | | | |m' H1 H2 H3|]; subst. split; [exact H1|]. rewrite Forall_map in Hf. rewrite Forall_forall in *. intros q Hq.
  split; [exact (H2 q Hq)|]. split; [exact (H3 q Hq)|exact (Hf q Hq)].
Qed.
Definition kept_elements (d : N) (l : list json) : Prop := within (p_arr p) (N.of_nat (length l)) /\ Forall (kept_at (d + 1)) l.
Lemma kept_arr d l : within (p_depth p) (d + 1) -> kept_elements d l -> kept_at d (JArr l).
Proof.
  intros Hd (Hl & Hm). split.
  - constructor; [exact Hl|]. eapply Forall_impl; try exact Hm; cbn beta; intros q (H1 & H2); assumption.
  - cbn [depth]. rewrite N.add_assoc. apply within_max; [exact Hd|]. apply Forall_map. eapply Forall_impl; [|exact Hm]. cbn beta. intros q (H1 & H2). exact H2.
Qed.
Lemma kept_arr_inv d l : kept_at d (JArr l) -> within (p_depth p) (d + 1) /\ kept_elements d l.
Proof.
  intros (Hk & Hd). cbn [depth] in Hd. rewrite N.add_assoc in Hd. apply max_within in Hd as (Hd & Hf). split; [exact Hd|].
  inversion Hk as [| | | | | | |l' H1 H2]; subst. split; [exact H1|]. rewrite Forall_map in Hf. rewrite Forall_forall in *. intros q Hq.
  split; [exact (H2 q Hq)|exact (Hf q Hq)].
Qed.
Lemma kept_update d m k v : Forall (fun q => within (p_key p) (N.of_nat (length (fst q))) /\ kept_at (d + 1) (snd q)) m ->
  within (p_key p) (N.of_nat (length k)) -> kept_at (d + 1) v ->
  Forall (fun q => within (p_key p) (N.of_nat (length (fst q))) /\ kept_at (d + 1) (snd q)) (obj_update look m k v).
Proof.
  intros Hm Hk Hv. unfold obj_update. destruct (look (map fst m) k) as [i|].
  - clear - Hm Hk Hv. revert i. induction Hm as [|q m Hq Hm IH]; intros i; destruct i; cbn [upd]; constructor; auto.
  - apply Forall_app. split; [exact Hm|]. constructor; [|constructor]. auto.
Qed.

(** An accepted string is within its limit, and accepted without a policy. *)
Lemma string_limit k s b r : parse_string p k s = Ok (b, r) ->
  parse_string no_policy k s = Ok (b, r) /\ within (if k then p_key p else p_str p) (N.of_nat (length b)).
Proof.
  unfold parse_string. destruct (scan false s) as [[raw rest]|]; [|discriminate]. destruct (fetch raw) as [x|e| | | |]; try discriminate. cbn [rbind].
  destruct k; cbn [no_policy p_key p_str]; rewrite no_limit.
  - destruct (exceeds (p_key p) _) eqn:E; [discriminate|]. intros H. injection H as <- <-. split; [reflexivity|]. apply exceeds_within. exact E.
  - destruct (exceeds (p_str p) _) eqn:E; [discriminate|]. intros H. injection H as <- <-. split; [reflexivity|]. apply exceeds_within. exact E.
Qed.
Lemma string_limit_rev k s b r : parse_string no_policy k s = Ok (b, r) -> within (if k then p_key p else p_str p) (N.of_nat (length b)) ->
  parse_string p k s = Ok (b, r).
Proof.
  unfold parse_string. destruct (scan false s) as [[raw rest]|]; [|discriminate]. destruct (fetch raw) as [x|e| | | |]; try discriminate. cbn [rbind].
  destruct k; cbn [no_policy p_key p_str]; rewrite no_limit; intros H; injection H as <- <-; intros Hw; apply exceeds_within in Hw; rewrite Hw; reflexivity.
Qed.
Lemma rbind_ok {A B} (r : res A) (f : A -> res B) b : rbind r f = Ok b -> exists a, r = Ok a /\ f a = Ok b.
Proof. destruct r; cbn [rbind]; try discriminate. eauto. Qed.
Lemma word_kept s v r : parse_word s = Ok (v, r) -> kept_at 0 v /\ depth v = 0 /\ (forall k, v <> JStr k).
Proof.
  unfold parse_word. destruct (word _ s); [|destruct (word _ s); [|destruct (word _ s); [|discriminate]]]; intros H; injection H as <- <-;
    (split; [split; [constructor|apply within_zero]|split; [reflexivity|discriminate]]).
Qed.

Notation P x := (x look p term). Notation P0 x := (x look no_policy term).
Lemma limits_kept f :
  (forall d k s v r, within (p_depth p) d -> P parse_json f d k s = Ok (v, r) ->
     P0 parse_json f d k s = Ok (v, r) /\ (if k then forall b, v = JStr b -> within (p_key p) (N.of_nat (length b)) else kept_at d v)) /\
  (forall d m s v r, within (p_depth p) (d + 1) -> kept_members d m -> P parse_obj f d m s = Ok (v, r) ->
     P0 parse_obj f d m s = Ok (v, r) /\ (exists M, v = JObj M) /\ kept_at d v) /\
  (forall d l s v r, within (p_depth p) (d + 1) -> kept_elements d l -> P parse_arr f d l s = Ok (v, r) ->
     P0 parse_arr f d l s = Ok (v, r) /\ (exists L, v = JArr L) /\ kept_at d v).
Proof.
  induction f as [|f (IHj & IHo & IHa)]; [split; [|split]; intros; discriminate|]. split; [|split].
  - intros d k s v r Hd. rewrite !parse_json_S. cbn [no_policy p_depth]. rewrite no_limit. destruct (skip s) as [|c t].
    { intros H. injection H as <- <-. split; [reflexivity|]. destruct k; [discriminate|]. split; [constructor|]. cbn [depth]. rewrite N.add_0_r. exact Hd. }
    destruct (c =? 123).
    { destruct t as [|x t]; [discriminate|]. destruct (exceeds (p_depth p) (d + 1)) eqn:E; [discriminate|]. apply exceeds_within in E. intros H.
      destruct (IHo d [] _ _ _ E (conj (within_zero _) (Forall_nil _)) H) as (H0 & (M & ->) & Hk). split; [exact H0|]. destruct k; [discriminate|exact Hk]. }
    destruct (c =? 91).
    { destruct t as [|x t]; [discriminate|]. destruct (exceeds (p_depth p) (d + 1)) eqn:E; [discriminate|]. apply exceeds_within in E. intros H.
      destruct (IHa d [] _ _ _ E (conj (within_zero _) (Forall_nil _)) H) as (H0 & (M & ->) & Hk). split; [exact H0|]. destruct k; [discriminate|exact Hk]. }
    destruct (c =? 34).
    { destruct t as [|x t]; [discriminate|]. intros H. apply rbind_ok in H as ([b r'] & E & H). cbn [fst snd] in H. injection H as <- <-.
      apply string_limit in E as (E & Hw). rewrite E. split; [reflexivity|]. destruct k; [intros b' Hb; injection Hb as <-; exact Hw|].
      split; [constructor; exact Hw|]. cbn [depth]. rewrite N.add_0_r. exact Hd. }
    destruct (is_digit c || (c =? 45)).
    { intros H. split; [exact H|]. apply rbind_ok in H as ([b r'] & E & H). injection H as <- <-. destruct k; [discriminate|].
      split; [constructor|]. cbn [depth]. rewrite N.add_0_r. exact Hd. }
    intros H. split; [exact H|]. apply word_kept in H as ((Hk & _) & H0 & Hn). destruct k; [intros b Hb; destruct (Hn b Hb)|].
    split; [exact Hk|]. rewrite H0, N.add_0_r. exact Hd.
  - intros d m s v r Hd Hm. rewrite !parse_obj_S. destruct (skip s) as [|c t]; [destruct term; discriminate|]. destruct (c =? 125).
    { intros H. injection H as <- <-. split; [reflexivity|]. split; [eauto|]. apply kept_obj; assumption. }
    intros H. apply rbind_ok in H as ([kv s1] & E & H). apply IHj in E as (E & Hkey); [|exact Hd]. rewrite E. cbn [rbind].
    destruct kv as [| | |key| | | |]; try discriminate. destruct s1 as [|x s1]; [discriminate|]. destruct (skip (x :: s1)) as [|c1 [|y t1]]; try discriminate.
    destruct (c1 =? 58); [|discriminate]. apply rbind_ok in H as ([v2 s2] & E2 & H). apply IHj in E2 as (E2 & Hv); [|exact Hd]. rewrite E2. cbn [rbind].
    destruct (skip s2) as [|c2 t2]; [discriminate|]. cbv zeta in *. cbn [no_policy p_obj]. rewrite no_limit.
    destruct (exceeds (p_obj p) _) eqn:Ex; [discriminate|]. apply exceeds_within in Ex.
    assert (Hm' : kept_members d (obj_update look m key v2)) by (split; [exact Ex|apply kept_update; [apply Hm|apply Hkey; reflexivity|exact Hv]]).
    destruct (c2 =? 44).
    + destruct t2 as [|z t2]; [discriminate|]. exact (IHo _ _ _ _ _ Hd Hm' H).
    + destruct (c2 =? 125); [|discriminate]. injection H as <- <-. split; [reflexivity|]. split; [eauto|]. apply kept_obj; assumption.
  - intros d l s v r Hd Hl. rewrite !parse_arr_S. destruct s as [|c t]; [discriminate|].
    intros H. apply rbind_ok in H as ([v1 s1] & E & H).
    assert (E' : (if c =? 93 then Ok (JNone, c :: t) else P0 parse_json f (d + 1) false (c :: t)) = Ok (v1, s1) /\ kept_at (d + 1) v1).
    { destruct (c =? 93).
      - injection E as <- <-. split; [reflexivity|]. split; [constructor|]. cbn [depth]. rewrite N.add_0_r. exact Hd.
      - apply IHj in E; [exact E|exact Hd]. }
    destruct E' as (E' & Hv). rewrite E'. cbn [rbind]. clear E E'. destruct s1 as [|x s1]; [discriminate|]. cbv zeta in *. cbn [no_policy p_arr]. rewrite no_limit.
    destruct (exceeds (p_arr p) _) eqn:Ex; [discriminate|]. apply exceeds_within in Ex.
    assert (Hm' : kept_elements d (l ++ [v1])) by (split; [exact Ex|apply Forall_app; split; [apply Hl|constructor; [exact Hv|constructor]]]).
    destruct (skip (x :: s1)) as [|c1 t1]; [discriminate|]. destruct (c1 =? 44).
    + destruct t1 as [|z t1]; [discriminate|]. exact (IHa _ _ _ _ _ Hd Hm' H).
    + destruct (c1 =? 93); [|discriminate]. injection H as <- <-. split; [reflexivity|]. split; [eauto|]. apply kept_arr; assumption.
Qed.
Lemma decode_obeys s v : decode look p term s = Ok v -> decode look no_policy term s = Ok v /\ obeys p v.
Proof.
  unfold decode. intros H. apply rbind_ok in H as ([w r] & E & H). apply (proj1 (limits_kept _)) in E as (E & Hk & Hd); [|apply within_zero].
  rewrite E. cbn [rbind]. rewrite N.add_0_l in Hd. split; [exact H|]. apply kept_obeys.
  destruct w; try discriminate; destruct r; try discriminate; injection H as <-; auto.
Qed.

(** ** The other direction, for texts without repeated keys *)
Inductive uniq : json -> Prop :=
| u_none : uniq JNone | u_true : uniq JTrue | u_false : uniq JFalse | u_null : uniq JNull | u_str s : uniq (JStr s) | u_num d : uniq (JNum d)
| u_obj m : NoDup (map fst m) -> Forall (fun q => uniq (snd q)) m -> uniq (JObj m)
| u_arr l : Forall uniq l -> uniq (JArr l).
Lemma value_uniq v t : value v t -> uniq v.
Proof.
  revert v t. apply (value_mind (fun v _ => uniq v) (fun m _ => Forall (fun q => uniq (snd q)) m) (fun l _ => Forall uniq l)); intros; try (constructor; auto; fail).
  constructor; constructor.
Qed.
(** Every insertion is taken for a new key. *)
Definition look0 : list (list N) -> list N -> option nat := fun _ _ => None.
Hypothesis Hlook : sound_look look.
Notation Q x := (x look0 no_policy term).
Lemma limits_enough f :
  (forall d k s v r, Q parse_json f d k s = Ok (v, r) ->
     (if k then exists b, v = JStr b /\ within (p_key p) (N.of_nat (length b)) else uniq v /\ kept_at d v) -> P parse_json f d k s = Ok (v, r)) /\
  (forall d m s v r, Q parse_obj f d m s = Ok (v, r) -> exists M, v = JObj (m ++ M) /\ (uniq v -> kept_at d v -> P parse_obj f d m s = Ok (v, r))) /\
  (forall d l s v r, Q parse_arr f d l s = Ok (v, r) -> exists L, v = JArr (l ++ L) /\ (uniq v -> kept_at d v -> P parse_arr f d l s = Ok (v, r))).
Proof.
  induction f as [|f (IHj & IHo & IHa)]; [split; [|split]; intros; discriminate|]. split; [|split].
  - intros d k s v r. rewrite !parse_json_S. cbn [no_policy p_depth]. rewrite no_limit. destruct (skip s) as [|c t]; [auto|].
    destruct (c =? 123).
    { destruct t as [|x t]; [discriminate|]. intros H. destruct (IHo _ _ _ _ _ H) as (M & -> & Hk). destruct k; [intros (b & C & _); discriminate|].
      intros (Hu & Ha). destruct (kept_obj_inv _ _ Ha) as (Hd & _). apply exceeds_within in Hd. rewrite Hd. auto. }
    destruct (c =? 91).
    { destruct t as [|x t]; [discriminate|]. intros H. destruct (IHa _ _ _ _ _ H) as (M & -> & Hk). destruct k; [intros (b & C & _); discriminate|].
      intros (Hu & Ha). destruct (kept_arr_inv _ _ Ha) as (Hd & _). apply exceeds_within in Hd. rewrite Hd. auto. }
    destruct (c =? 34).
    { destruct t as [|x t]; [discriminate|]. intros H. apply rbind_ok in H as ([b r'] & E & H). injection H as <- <-. cbn [fst snd] in *.
      intros Hk. rewrite (string_limit_rev k (x :: t) b r' E); [reflexivity|]. destruct k; [destruct Hk as (b' & Hb & Hw); injection Hb as <-; exact Hw|].
      destruct Hk as (_ & Hk & _). inversion Hk. assumption. }
    auto.
  - intros d m s v r. rewrite !parse_obj_S. destruct (skip s) as [|c t]; [destruct term; discriminate|]. destruct (c =? 125).
    { intros H. injection H as <- <-. exists []. rewrite app_nil_r. auto. }
    intros H. apply rbind_ok in H as ([kv s1] & E & H). destruct kv as [| | |key| | | |]; try discriminate. destruct s1 as [|x s1]; [discriminate|].
    destruct (skip (x :: s1)) as [|c1 [|y t1]] eqn:Es; try discriminate. destruct (c1 =? 58) eqn:Ec; [|discriminate].
    apply rbind_ok in H as ([v2 s2] & E2 & H). destruct (skip s2) as [|c2 t2] eqn:Es2; [discriminate|]. cbv zeta in *. cbn [no_policy p_obj] in H. rewrite no_limit in H.
    assert (Hu : obj_update look0 m key v2 = m ++ [(key, v2)]) by reflexivity. rewrite Hu in H. clear Hu.
    assert (Step : forall M, uniq (JObj ((m ++ [(key, v2)]) ++ M)) -> kept_at d (JObj ((m ++ [(key, v2)]) ++ M)) ->
      P parse_json f (d + 1) true (c :: t) = Ok (JStr key, x :: s1) /\ P parse_json f (d + 1) false (y :: t1) = Ok (v2, s2) /\
      obj_update look m key v2 = m ++ [(key, v2)] /\ exceeds (p_obj p) (N.of_nat (length (m ++ [(key, v2)]))) = false).
    { intros M Hu Ha. inversion Hu as [| | | | | |m' Hn Hf|]; subst. destruct (kept_obj_inv _ _ Ha) as (Hd & Hl & Hm).
      rewrite !Forall_app in Hf, Hm. destruct Hf as ((_ & Hf) & _). destruct Hm as ((_ & Hm) & _). inversion Hf as [|? ? Hf1 _]; subst. inversion Hm as [|? ? (Hm1 & Hm2) _]; subst.
      cbn [fst snd] in *. split; [|split; [|split]].
      - apply IHj; [exact E|]. eauto.
      - apply IHj; [exact E2|]. auto.
      - apply update_fresh; [exact Hlook|]. rewrite !map_app in Hn. cbn [map fst] in Hn. rewrite <- app_assoc in Hn. cbn [app] in Hn.
        apply NoDup_remove_2 in Hn. intros C. apply Hn, in_or_app. auto.
      - apply exceeds_within. rewrite app_length in Hl. unfold within in *. lia. }
    destruct (c2 =? 44) eqn:Ec2.
    + destruct t2 as [|z t2]; [discriminate|]. destruct (IHo _ _ _ _ _ H) as (M & -> & Hk). exists ((key, v2) :: M). rewrite <- app_assoc. split; [reflexivity|].
      intros Hu Ha. assert (Eq : m ++ [(key, v2)] ++ M = (m ++ [(key, v2)]) ++ M) by (rewrite <- app_assoc; reflexivity). rewrite Eq in *. clear Eq.
      destruct (Step M Hu Ha) as (A1 & A2 & A3 & A4). rewrite A1. cbn [rbind]. rewrite Es, Ec, A2. cbn [rbind]. rewrite Es2. cbv zeta. rewrite A3, A4, Ec2.
      specialize (Hk Hu Ha). exact Hk.
    + destruct (c2 =? 125) eqn:Ec3; [|discriminate]. injection H as <- <-. exists [(key, v2)]. split; [reflexivity|]. intros Hu Ha.
      destruct (Step [] ltac:(rewrite app_nil_r; exact Hu) ltac:(rewrite app_nil_r; exact Ha)) as (A1 & A2 & A3 & A4).
      rewrite A1. cbn [rbind]. rewrite Es, Ec, A2. cbn [rbind]. rewrite Es2. cbv zeta. rewrite A3, A4, Ec2, Ec3. reflexivity.
  - intros d l s v r. rewrite !parse_arr_S. destruct s as [|c t]; [discriminate|]. intros H. apply rbind_ok in H as ([v1 s1] & E & H).
    destruct s1 as [|x s1]; [discriminate|]. cbv zeta in *. cbn [no_policy p_arr] in H. rewrite no_limit in H.
    destruct (skip (x :: s1)) as [|c1 t1] eqn:Es; [discriminate|].
    assert (Step : forall L, uniq (JArr ((l ++ [v1]) ++ L)) -> kept_at d (JArr ((l ++ [v1]) ++ L)) ->
      (if c =? 93 then Ok (JNone, c :: t) else P parse_json f (d + 1) false (c :: t)) = Ok (v1, x :: s1) /\
      exceeds (p_arr p) (N.of_nat (length (l ++ [v1]))) = false).
    { intros L Hu Ha. inversion Hu as [| | | | | | |m' Hf]; subst. destruct (kept_arr_inv _ _ Ha) as (Hd & Hl & Hm).
      rewrite !Forall_app in Hf, Hm. destruct Hf as ((_ & Hf) & _). destruct Hm as ((_ & Hm) & _). inversion Hf as [|? ? Hf1 _]; subst. inversion Hm as [|? ? Hm1 _]; subst.
      split.
      - destruct (c =? 93); [exact E|]. apply IHj; [exact E|]. auto.
      - apply exceeds_within. rewrite app_length in Hl. unfold within in *. lia. }
    destruct (c1 =? 44) eqn:Ec2.
    + destruct t1 as [|z t1]; [discriminate|]. destruct (IHa _ _ _ _ _ H) as (L & -> & Hk). exists (v1 :: L). rewrite <- app_assoc. split; [reflexivity|].
      intros Hu Ha. assert (Eq : l ++ [v1] ++ L = (l ++ [v1]) ++ L) by (rewrite <- app_assoc; reflexivity). rewrite Eq in *. clear Eq.
      destruct (Step L Hu Ha) as (A1 & A2). rewrite A1. cbn [rbind]. cbv zeta. rewrite A2, Es, Ec2. exact (Hk Hu Ha).
    + destruct (c1 =? 93) eqn:Ec3; [|discriminate]. injection H as <- <-. exists [v1]. split; [reflexivity|]. intros Hu Ha.
      destruct (Step [] ltac:(rewrite app_nil_r; exact Hu) ltac:(rewrite app_nil_r; exact Ha)) as (A1 & A2).
      rewrite A1. cbn [rbind]. cbv zeta. rewrite A2, Es, Ec2, Ec3. reflexivity.
Qed.
Lemma look0_sound : sound_look look0. Proof. intros ks k i H. discriminate. Qed.
Lemma decode_within s v : document v s -> obeys p v -> decode look p term s = Ok v.
Proof.
  intros Hdoc Ho. pose proof (decode_complete look0 look0_sound term v s Hdoc) as H. apply kept_obeys in Ho as (Hd & Hk).
  destruct Hdoc as (_ & w1 & t & w2 & Es & _ & Hv & _). unfold decode in *. apply rbind_ok in H as ([w r] & E & H).
  assert (w = v /\ r = []) as [-> ->] by (destruct w; try discriminate; destruct r; try discriminate; injection H as <-; auto).
  apply (proj1 (limits_enough _)) in E.
  - rewrite E. exact H.
  - split; [exact (value_uniq v t Hv)|]. split; [exact Hk|]. rewrite N.add_0_l. exact Hd.
Qed.
End Limits.

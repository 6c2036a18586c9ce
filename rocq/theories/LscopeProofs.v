Require Import List Arith NArith Bool Lia Sorting.Permutation.
Require Import ZifyBool ZifyNat ZifyN.
Require Import Verif.Base Verif.LscopeModel Verif.LscopeSpec.
Import ListNotations.
Open Scope N_scope.

(** ** Lists and maps *)

Lemma put_same : forall V (f : N -> V) a v, put f a v a = v.
Proof. intros. unfold put. now rewrite N.eqb_refl. Qed.
Lemma put_other : forall V (f : N -> V) a v x, x <> a -> put f a v x = f x.
Proof. intros V f a v x H. unfold put. destruct (N.eqb_spec x a); [contradiction|reflexivity]. Qed.

Lemma set_at_length : forall A (l : list A) k x, length (set_at k x l) = length l.
Proof. induction l; intros [|k] x; cbn [set_at length]; auto. Qed.
Lemma set_at_same : forall A (l : list A) k x y, nth_error l k = Some y -> nth_error (set_at k x l) k = Some x.
Proof. induction l; intros [|k] x y; cbn [set_at nth_error]; try discriminate; eauto. Qed.
Lemma set_at_other : forall A (l : list A) k j x, j <> k -> nth_error (set_at k x l) j = nth_error l j.
Proof. induction l; intros [|k] [|j] x H; cbn [set_at nth_error]; try congruence; auto. Qed.

Lemma same_spec : forall a b, reflect (a = b) (same a b).
Proof. intros. unfold same. destruct (list_eq_dec N.eq_dec a b); constructor; assumption. Qed.

Lemma existsb_in : forall x l, existsb (N.eqb x) l = true <-> In x l.
Proof.
  intros x l. rewrite existsb_exists. split.
  - intros (y & H & E). apply N.eqb_eq in E. now subst.
  - intros H. exists x. split; [assumption|apply N.eqb_refl].
Qed.

Lemma remove_in : forall x y l, In x (remove N.eq_dec y l) <-> In x l /\ x <> y.
Proof. intros. split; [apply in_remove|intros []; now apply in_in_remove]. Qed.

(** ** The invariant *)

Definition live (c : ctx) (id : N) : Prop := exists k s, nth_error (scopes c) k = Some s /\ In id (c_syms s).
Definition shows (c : ctx) (s : scope) (l : level) : Prop :=
  c_title s = title l /\ c_class s = is_class l /\
  map (fun id => (n_name (nodes c id), n_thing (nodes c id))) (c_syms s) = map (fun d => (fst d, Some (snd d))) (defs l).
Record R (c : ctx) (ls : list level) : Prop := mkR {
  r_len : length (scopes c) = length ls;
  r_shows : forall k s l, nth_error (scopes c) k = Some s -> nth_error ls k = Some l -> shows c s l;
  r_layer : forall k s, nth_error (scopes c) k = Some s -> c_layer s = N.of_nat (length (scopes c) - k);
  r_in : forall k s id, nth_error (scopes c) k = Some s -> In id (c_syms s) ->
    n_layer (nodes c id) = c_layer s /\ id < made c /\ n_bucket (nodes c id) = bucket_of (n_name (nodes c id)) (n_layer (nodes c id)) /\ ~ In id (spare c);
  r_names : forall k s, nth_error (scopes c) k = Some s -> NoDup (map (fun id => n_name (nodes c id)) (c_syms s));
  r_bucket : forall b id, In id (buckets c b) <-> live c id /\ n_bucket (nodes c id) = b;
  r_spare : NoDup (spare c) /\ Forall (fun id => id < made c) (spare c);
  r_null : Forall (fun id => n_thing (nodes c id) = None) (spare c);
  r_count : count c = N.of_nat (length (spare c)) /\ count c <= 65535;
  r_depth : (length ls <= 1025)%nat
}.

Lemma layers_differ : forall c ls j k s u, R c ls -> nth_error (scopes c) j = Some s -> nth_error (scopes c) k = Some u -> c_layer s = c_layer u -> j = k.
Proof.
  intros c ls j k s u H J K E. rewrite (r_layer _ _ H _ _ J), (r_layer _ _ H _ _ K) in E.
  assert ((j < length (scopes c))%nat) by (apply nth_error_Some; congruence).
  assert ((k < length (scopes c))%nat) by (apply nth_error_Some; congruence). lia.
Qed.

(** ** Looking for a name *)

Lemma find_in_ok : forall c ls k s name, R c ls -> nth_error (scopes c) k = Some s ->
  match find_in c name (c_layer s) with
  | Some id => In id (c_syms s) /\ n_name (nodes c id) = name
  | None => forall id, In id (c_syms s) -> n_name (nodes c id) <> name
  end.
Proof.
  intros c ls k s name H K. unfold find_in. destruct (find _ _) as [id|] eqn:F.
  - apply find_some in F. destruct F as [I E]. apply andb_true_iff in E. destruct E as [E1 E2]. apply N.eqb_eq in E1.
    destruct (same_spec (n_name (nodes c id)) name) as [E|]; [|discriminate]. split; [|exact E].
    apply in_rev, (r_bucket _ _ H) in I. destruct I as [(j & u & J & I) _].
    destruct (r_in _ _ H _ _ _ J I) as [L _].
    assert (j = k) by (eapply layers_differ; eauto; congruence). subst j. congruence.
  - intros id I E. destruct (r_in _ _ H _ _ _ K I) as (L & _ & B & _).
    assert (X : In id (rev (buckets c (bucket_of name (c_layer s))))).
    { apply -> in_rev. apply (r_bucket _ _ H). split; [exists k, s; auto|]. rewrite B, E, L. reflexivity. }
    pose proof (find_none _ _ F id X) as Q. cbv beta in Q. rewrite L, N.eqb_refl, E in Q. destruct (same_spec name name); [discriminate|congruence].
Qed.

Lemma find_defs : forall (f : N -> list N) (g : N -> option thing) name syms (ds : list (list N * thing)),
  map (fun id => (f id, g id)) syms = map (fun d => (fst d, Some (snd d))) ds -> NoDup (map f syms) ->
  forall id, In id syms -> f id = name -> g id = option_map snd (find (is_name name) ds).
Proof.
  intros f g name. induction syms as [|x syms IH]; intros [|[n t] ds] E ND id I Q; cbn [map] in *; try discriminate; [destruct I|].
  pose proof (f_equal (fun l => match l with a :: _ => a | [] => ([], None) end) E) as E1. pose proof (f_equal (@tl _) E) as E2. cbn [tl fst snd] in *.
  apply NoDup_cons_iff in ND. destruct ND as [N1 N2]. cbn [find]. unfold is_name at 1. cbn [fst].
  pose proof (f_equal fst E1) as F1. pose proof (f_equal snd E1) as F2. cbn [fst snd] in *. clear E1.
  destruct I as [->|I].
  - destruct (list_eq_dec N.eq_dec n name); [cbn [option_map snd]; exact F2|congruence].
  - destruct (list_eq_dec N.eq_dec n name) as [->|]; [|eauto].
    exfalso. apply N1. rewrite F1, <- Q. apply in_map, I.
Qed.

Lemma find_defs_none : forall (f : N -> list N) (g : N -> option thing) name syms (ds : list (list N * thing)),
  map (fun id => (f id, g id)) syms = map (fun d => (fst d, Some (snd d))) ds -> (forall id, In id syms -> f id <> name) ->
  find (is_name name) ds = None.
Proof.
  intros f g name. induction syms as [|x syms IH]; intros [|[n t] ds] E H; cbn [map] in *; try discriminate; [reflexivity|].
  pose proof (f_equal (fun l => match l with a :: _ => fst a | [] => [] end) E) as E1. pose proof (f_equal (@tl _) E) as E2. cbn [tl fst snd] in *.
  cbn [find]. unfold is_name at 1. cbn [fst]. destruct (list_eq_dec N.eq_dec n name) as [->|].
  - exfalso. apply (H x); [now left|exact E1].
  - apply IH; [exact E2|]. intros. apply H. now right.
Qed.

Lemma node_in_ok : forall c ls k s l name, R c ls -> nth_error (scopes c) k = Some s -> nth_error ls k = Some l ->
  thing_of c (node_in c name s) = meaning name l /\ (node_in c name s = None <-> meaning name l = None).
Proof.
  intros c ls k s l name H K L. unfold node_in, meaning. pose proof (find_in_ok c ls k s name H K) as F.
  destruct (r_shows _ _ H _ _ _ K L) as (_ & _ & E).
  destruct (find_in c name (c_layer s)) as [id|]; cbn [thing_of].
  - destruct F as [I Q]. pose proof (find_defs _ _ name _ _ E (r_names _ _ H _ _ K) id I Q) as G. split; [exact G|].
    split; [discriminate|]. intros NO. rewrite <- G in NO.
    assert (X : In (n_name (nodes c id), n_thing (nodes c id)) (map (fun d : list N * thing => (fst d, Some (snd d))) (defs l))).
    { rewrite <- E. apply (in_map (fun id => (n_name (nodes c id), n_thing (nodes c id)))), I. }
    apply in_map_iff in X. destruct X as (d & X & _). pose proof (f_equal snd X) as X2. cbn [snd] in X2. congruence.
  - pose proof (find_defs_none _ _ name _ _ E F) as G. rewrite G. split; [reflexivity|split; reflexivity].
Qed.

Lemma last_nth : forall A (l : list A) d, l <> [] -> nth_error l (length l - 1) = Some (last l d).
Proof.
  induction l as [|x l IH]; intros d H; [contradiction|]. destruct l as [|y l]; [reflexivity|].
  cbn [length]. replace (S (S (length l)) - 1)%nat with (S (S (length l) - 1))%nat by lia. cbn [nth_error].
  change (last (x :: y :: l) d) with (last (y :: l) d). apply (IH d). discriminate.
Qed.

Lemma search_ok : forall c ls name local, R c ls -> thing_of c (search c name local) = lookup ls name local.
Proof.
  intros c ls name local H. unfold search, lookup. pose proof (r_len _ _ H) as L.
  destruct (scopes c) as [|s r] eqn:S, ls as [|l q]; cbn [length] in L; try discriminate; [reflexivity|].
  destruct (node_in_ok c (l :: q) 0 s l name H) as [A B]; [now rewrite S|reflexivity|].
  destruct (node_in c name s) as [id|].
  - destruct (meaning name l) as [t|]; [exact A|]. destruct B as [_ B]. now discriminate B.
  - rewrite (proj1 B eq_refl). destruct local; [reflexivity|]. cbn [orb].
    destruct r as [|s2 r], q as [|l2 q]; cbn [length] in L; try discriminate.
    + cbn [thing_of last]. symmetry. apply B. reflexivity.
    + destruct (node_in_ok c (l :: l2 :: q) (length (s2 :: r)) (last (s2 :: r) s) (last (l2 :: q) l) name H) as [C _]; [| |exact C].
      * rewrite S. cbn [length nth_error]. rewrite <- (last_nth _ (s2 :: r) s) by discriminate. f_equal. cbn [length]. lia.
      * cbn [length nth_error] in *. rewrite <- (last_nth _ (l2 :: q) l) by discriminate. f_equal. cbn [length]. lia.
Qed.

(** ** A symbol goes *)

Definition without (name : list N) (l : level) : level := mkL (title l) (is_class l) (filter (fun d => negb (is_name name d)) (defs l)).

Lemma without_defs : forall (f f' : N -> list N) (g g' : N -> option thing) id syms (ds : list (list N * thing)),
  map (fun id => (f id, g id)) syms = map (fun d => (fst d, Some (snd d))) ds -> NoDup (map f syms) ->
  (forall x, x <> id -> f' x = f x /\ g' x = g x) -> In id syms ->
  map (fun id => (f' id, g' id)) (remove N.eq_dec id syms) = map (fun d => (fst d, Some (snd d))) (filter (fun d => negb (is_name (f id) d)) ds).
Proof.
  intros f f' g g' id. induction syms as [|x syms IH]; intros [|[n t] ds] E ND C I; cbn [map] in *; try discriminate; [destruct I|].
  pose proof (f_equal (fun l => match l with a :: _ => a | [] => ([], None) end) E) as E1. pose proof (f_equal (@tl _) E) as E2. cbn [tl fst snd] in *.
  apply NoDup_cons_iff in ND. destruct ND as [N1 N2].
  pose proof (f_equal fst E1) as F1. pose proof (f_equal snd E1) as F2. cbn [fst snd] in *. clear E1 E.
  cbn [remove filter]. unfold is_name at 1. cbn [fst].
  assert (Z : forall syms ds, map (fun id => (f id, g id)) syms = map (fun d : list N * thing => (fst d, Some (snd d))) ds -> ~ In (f id) (map f syms) ->
    map (fun id => (f' id, g' id)) (remove N.eq_dec id syms) = map (fun d => (fst d, Some (snd d))) (filter (fun d => negb (is_name (f id) d)) ds)).
  { clear - C. induction syms as [|x syms IH]; intros [|[n t] ds] E N; cbn [map] in *; try discriminate; [reflexivity|].
    pose proof (f_equal (fun l => match l with a :: _ => a | [] => ([], None) end) E) as E1. pose proof (f_equal (@tl _) E) as E2. cbn [tl fst snd] in *.
    pose proof (f_equal fst E1) as F1. pose proof (f_equal snd E1) as F2. cbn [fst snd] in *.
    cbn [remove filter]. unfold is_name at 1. cbn [fst]. destruct (N.eq_dec id x) as [->|D]; [exfalso; apply N; now left|].
    destruct (list_eq_dec N.eq_dec n (f id)) as [Q|Q]; [exfalso; apply N; left; congruence|]. cbn [negb map fst snd].
    destruct (C x) as [G1 G2]; [congruence|]. rewrite G1, G2, F1, F2. f_equal. apply IH; [exact E2|]. intros X. apply N. now right. }
  destruct I as [->|I].
  - destruct (N.eq_dec id id); [|congruence]. destruct (list_eq_dec N.eq_dec n (f id)); [|congruence]. cbn [negb]. apply Z; assumption.
  - assert (x <> id) by (intros ->; apply N1, in_map, I). destruct (N.eq_dec id x); [congruence|].
    destruct (list_eq_dec N.eq_dec n (f id)) as [Q|Q]; [exfalso; apply N1; rewrite F1, Q; apply in_map, I|]. cbn [negb map fst snd].
    destruct (C x) as [G1 G2]; [congruence|]. rewrite G1, G2, F1, F2. f_equal. apply IH; auto.
Qed.

Lemma map_remove_nodup : forall (f f' : N -> list N) id syms, NoDup (map f syms) -> (forall x, x <> id -> f' x = f x) -> NoDup (map f' (remove N.eq_dec id syms)).
Proof.
  intros f f' id. induction syms as [|x syms IH]; intros ND C; cbn [remove map] in *; [constructor|].
  apply NoDup_cons_iff in ND. destruct ND as [N1 N2]. destruct (N.eq_dec id x) as [->|D]; [auto|]. cbn [map]. constructor; [|auto].
  rewrite C by congruence. intros I. apply in_map_iff in I. destruct I as (y & Q & I). apply remove_in in I. destruct I as [I Y].
  rewrite C in Q by congruence. apply N1. rewrite <- Q. apply in_map, I.
Qed.

(** The whole way of a symbol out of its scope. *)
Definition gone (c : ctx) (k : nat) (s : scope) (id : N) : ctx * list thing :=
  free_node (mkX (nodes c) (put (buckets c) (n_bucket (nodes c id)) (remove N.eq_dec id (buckets c (n_bucket (nodes c id)))))
               (set_at k (mkC (c_title s) (c_class s) (c_layer s) (remove N.eq_dec id (c_syms s))) (scopes c)) (spare c) (count c) (made c)) id true.

Lemma gone_fields : forall c k s id,
  scopes (fst (gone c k s id)) = set_at k (mkC (c_title s) (c_class s) (c_layer s) (remove N.eq_dec id (c_syms s))) (scopes c) /\
  nodes (fst (gone c k s id)) = put (nodes c) id (mkN (n_name (nodes c id)) None (n_layer (nodes c id)) (n_bucket (nodes c id))) /\
  buckets (fst (gone c k s id)) = put (buckets c) (n_bucket (nodes c id)) (remove N.eq_dec id (buckets c (n_bucket (nodes c id)))) /\
  made (fst (gone c k s id)) = made c /\
  (spare (fst (gone c k s id)) = spare c /\ count (fst (gone c k s id)) = count c \/
   count c < 65535 /\ spare (fst (gone c k s id)) = spare c ++ [id] /\ count (fst (gone c k s id)) = (count c + 1) mod 2 ^ 16) /\
  snd (gone c k s id) = match n_thing (nodes c id) with Some t => [t] | None => [] end.
Proof.
  intros c k s id. unfold gone, free_node. cbn [nodes buckets scopes spare count made andb].
  destruct (N.ltb_spec (count c) 65535) as [L|L]; cbn [fst snd nodes buckets scopes spare count made].
  - repeat split; try reflexivity. right. repeat split; assumption.
  - repeat split; try reflexivity. left. split; reflexivity.
Qed.

Lemma gone_ok : forall c ls k s l id, R c ls -> nth_error (scopes c) k = Some s -> nth_error ls k = Some l -> In id (c_syms s) ->
  R (fst (gone c k s id)) (set_at k (without (n_name (nodes c id)) l) ls) /\
  snd (gone c k s id) = replaced (n_name (nodes c id)) l /\ made (fst (gone c k s id)) = made c /\
  (forall x, x <> id -> nodes (fst (gone c k s id)) x = nodes c x) /\
  (forall x, live (fst (gone c k s id)) x <-> live c x /\ x <> id) /\
  (forall x, In x (spare (fst (gone c k s id))) -> In x (spare c) \/ x = id).
Proof.
  intros c ls k s l id H K L I. destruct (gone_fields c k s id) as (F1 & F2 & F3 & F4 & F5 & F6).
  set (g := gone c k s id) in *. clearbody g. destruct (r_in _ _ H _ _ _ K I) as (I1 & I2 & I3 & I4).
  assert (O : forall x, x <> id -> nodes (fst g) x = nodes c x) by (intros; rewrite F2; now apply put_other).
  assert (KN : forall j u, nth_error (scopes (fst g)) j = Some u ->
    (j = k /\ u = mkC (c_title s) (c_class s) (c_layer s) (remove N.eq_dec id (c_syms s))) \/ (j <> k /\ nth_error (scopes c) j = Some u /\ ~ In id (c_syms u))).
  { intros j u J. rewrite F1 in J. destruct (Nat.eq_dec j k) as [->|D].
    - left. rewrite (set_at_same _ _ _ _ _ K) in J. split; [reflexivity|]. congruence.
    - right. rewrite set_at_other in J by exact D. split; [exact D|]. split; [exact J|]. intros X.
      destruct (r_in _ _ H _ _ _ J X) as [Y _]. apply D. eapply layers_differ; eauto. congruence. }
  assert (LV : forall x, live (fst g) x <-> live c x /\ x <> id).
  { intros x. split.
    - intros (j & u & J & X). destruct (KN _ _ J) as [[-> ->]|(D & J' & N)].
      + cbn [c_syms] in X. apply remove_in in X. destruct X as [X Y]. split; [exists k, s; auto|exact Y].
      + split; [exists j, u; auto|]. intros ->. contradiction.
    - intros [(j & u & J & X) N]. destruct (Nat.eq_dec j k) as [->|D].
      + assert (u = s) by congruence. subst u. exists k. eexists. rewrite F1. split; [eapply set_at_same, K|]. cbn [c_syms]. apply remove_in. auto.
      + exists j, u. rewrite F1, set_at_other by exact D. auto. }
  assert (TH : n_thing (nodes c id) = meaning (n_name (nodes c id)) l).
  { destruct (r_shows _ _ H _ _ _ K L) as (_ & _ & E). unfold meaning.
    apply (find_defs (fun x => n_name (nodes c x)) (fun x => n_thing (nodes c x)) _ _ _ E (r_names _ _ H _ _ K) id I eq_refl). }
  split; [|split; [rewrite F6, TH; reflexivity|split; [exact F4|split; [exact O|split; [exact LV|]]]]].
  2:{ intros x X. destruct F5 as [[E _]|(_ & E & _)]; rewrite E in X; [auto|]. apply in_app_or in X. destruct X as [|[|[]]]; auto. }
  destruct H as [h1 h2 h3 h4 h5 h6 [h7a h7b] h8 [h9a h9b] h10]. split.
  - rewrite F1, !set_at_length. exact h1.
  - intros j u m J M. destruct (KN _ _ J) as [[-> ->]|(D & J' & N)].
    + rewrite (set_at_same _ _ _ _ _ L) in M. assert (EM : without (n_name (nodes c id)) l = m) by congruence. subst m.
      destruct (h2 _ _ _ K L) as (S1 & S2 & S3). repeat split; [exact S1|exact S2|]. cbn [c_syms defs without].
      apply (without_defs (fun x => n_name (nodes c x)) _ (fun x => n_thing (nodes c x)) _ id _ _ S3 (h5 _ _ K)); [|exact I].
      intros x X. rewrite O by exact X. auto.
    + rewrite set_at_other in M by exact D. destruct (h2 _ _ _ J' M) as (S1 & S2 & S3). repeat split; [exact S1|exact S2|].
      rewrite <- S3. apply map_ext_in. intros x X. rewrite O; [reflexivity|]. intros ->. contradiction.
  - intros j u J. rewrite F1, set_at_length. destruct (KN _ _ J) as [[-> ->]|(D & J' & N)]; [cbn [c_layer]; auto|auto].
  - intros j u x J X.
    assert (XI : x <> id /\ exists v, nth_error (scopes c) j = Some v /\ c_layer u = c_layer v /\ In x (c_syms v)).
    { destruct (KN _ _ J) as [[-> ->]|(D & J' & N)].
      - cbn [c_syms c_layer] in *. apply remove_in in X. destruct X as [X Y]. split; [exact Y|]. exists s. auto.
      - split; [intros ->; contradiction|]. exists u. auto. }
    destruct XI as (XN & v & V1 & V2 & V3). rewrite O by exact XN. rewrite F4, V2. destruct (h4 _ _ _ V1 V3) as (A1 & A2 & A3 & A4).
    repeat split; auto. intros Z. destruct F5 as [[E _]|(_ & E & _)]; rewrite E in Z; [contradiction|]. apply in_app_or in Z. destruct Z as [|[|[]]]; congruence.
  - intros j u J. destruct (KN _ _ J) as [[-> ->]|(D & J' & N)].
    + cbn [c_syms]. apply (map_remove_nodup (fun x => n_name (nodes c x))); [apply (h5 _ _ K)|]. intros x X. now rewrite O.
    + rewrite (map_ext_in _ (fun x => n_name (nodes c x))); [apply (h5 _ _ J')|]. intros x X. rewrite O; [reflexivity|]. intros ->. contradiction.
  - intros b x. rewrite F3. rewrite LV. destruct (N.eq_dec x id) as [->|XN].
    + split; [|intros [[_ X] _]; contradiction]. unfold put. destruct (N.eqb_spec b (n_bucket (nodes c id))) as [->|B].
      * intros X. apply remove_in in X. now destruct X.
      * intros X. apply h6 in X. destruct X. congruence.
    + rewrite O by exact XN. unfold put. destruct (N.eqb_spec b (n_bucket (nodes c id))) as [->|B].
      * rewrite remove_in, h6. tauto.
      * rewrite h6. tauto.
  - rewrite F4. destruct F5 as [[E _]|(_ & E & _)]; rewrite E; [auto|]. split.
    + apply (Permutation_NoDup (Permutation_cons_append (spare c) id)). constructor; assumption.
    + apply Forall_app. split; [exact h7b|]. repeat constructor. exact I2.
  - assert (Z : Forall (fun x => n_thing (nodes (fst g) x) = None) (spare c)).
    { apply Forall_forall. intros x X. rewrite Forall_forall in h8. rewrite O; [auto|]. intros ->. contradiction. }
    destruct F5 as [[E _]|(_ & E & _)]; rewrite E; [exact Z|]. apply Forall_app. split; [exact Z|]. repeat constructor. rewrite F2, put_same. reflexivity.
  - destruct F5 as [[E E']|(LT & E & E')]; rewrite E, E'; [auto|]. rewrite app_length. cbn [length]. rewrite N.mod_small by lia. lia.
  - rewrite set_at_length. exact h10.
Qed.

Lemma leave_both : forall c ls k s id, R c ls -> nth_error (scopes c) k = Some s -> In id (c_syms s) ->
  rbind (leave_scope c k id) (fun c => rbind (leave_bucket c (n_bucket (nodes c id)) id) (fun c => Ok (free_node c id true))) = Ok (gone c k s id) /\
  rbind (leave_bucket c (n_bucket (nodes c id)) id) (fun c => rbind (leave_scope c k id) (fun c => Ok (free_node c id true))) = Ok (gone c k s id).
Proof.
  intros c ls k s id H K I.
  assert (B : existsb (N.eqb id) (buckets c (n_bucket (nodes c id))) = true).
  { apply existsb_in, (r_bucket _ _ H). split; [exists k, s; auto|reflexivity]. }
  assert (S : existsb (N.eqb id) (c_syms s) = true) by now apply existsb_in.
  unfold leave_scope, leave_bucket. split.
  - rewrite K, S. cbn [rbind nodes buckets scopes spare count made]. rewrite B. reflexivity.
  - rewrite B. cbn [rbind nodes buckets scopes spare count made]. rewrite K, S. reflexivity.
Qed.

(** ** A scope ends *)

Lemma first_gone : forall n t (ds : list (list N * thing)), NoDup (n :: map fst ds) -> filter (fun d => negb (is_name n d)) ((n, t) :: ds) = ds.
Proof.
  intros n t ds ND. apply NoDup_cons_iff in ND. destruct ND as [N1 _]. cbn [filter]. unfold is_name at 1. cbn [fst].
  destruct (list_eq_dec N.eq_dec n n); [|congruence]. cbn [negb]. induction ds as [|[m u] ds IH]; [reflexivity|].
  cbn [filter map fst] in *. unfold is_name at 1. cbn [fst]. destruct (list_eq_dec N.eq_dec m n) as [->|]; [exfalso; apply N1; now left|].
  cbn [negb]. f_equal. apply IH. intros X. apply N1. now right.
Qed.

Lemma drop_all_ok : forall syms c ls s l, R c (l :: ls) -> nth_error (scopes c) 0 = Some s -> c_syms s = syms ->
  exists c' u, drop_all c syms = Ok (c', map snd (defs l)) /\ R c' (mkL (title l) (is_class l) [] :: ls) /\ scopes c' = u :: tl (scopes c) /\ c_syms u = [].
Proof.
  induction syms as [|id syms IH]; intros c ls s l H K E.
  - pose proof (r_shows _ _ H 0%nat s l K eq_refl) as (_ & _ & S). rewrite E in S. cbn [map] in S.
    destruct l as [ti cl [|d ds]]; cbn [defs map] in S; [|discriminate]. exists c, s. cbn [drop_all defs map title is_class].
    split; [reflexivity|]. split; [exact H|]. split; [|exact E]. destruct (scopes c); [discriminate|]. cbn [nth_error tl] in *. congruence.
  - assert (I : In id (c_syms s)) by (rewrite E; now left).
    destruct (leave_both c (l :: ls) 0 s id H K I) as [Q _]. destruct (gone_ok c (l :: ls) 0 s l id H K eq_refl I) as (G1 & G2 & _ & _ & _ & _).
    destruct (gone_fields c 0 s id) as (F1 & _).
    pose proof (r_names _ _ H _ _ K) as ND. pose proof (r_shows _ _ H 0%nat s l K eq_refl) as (_ & _ & S). rewrite E in S, ND, F1.
    assert (RM : remove N.eq_dec id (id :: syms) = syms).
    { cbn [remove]. destruct (N.eq_dec id id); [|congruence]. apply notin_remove. intros X. cbn [map] in ND. apply NoDup_cons_iff in ND. destruct ND as [ND _].
      apply ND. apply (in_map (fun x => n_name (nodes c x))), X. }
    rewrite RM in F1. destruct l as [ti cl [|[n t] ds]]; cbn [map defs] in S; [discriminate|]. cbn [map] in ND. cbn [fst snd] in S.
    pose proof (f_equal (fun l => match l with a :: _ => fst a | [] => [] end) S) as S1. pose proof (f_equal (@tl _) S) as S2. cbn [tl fst] in S1, S2. clear S.
    assert (ND' : NoDup (n :: map fst ds)).
    { rewrite <- S1. apply (f_equal (map fst)) in S2. rewrite !map_map in S2. change (map (fun x => n_name (nodes c x)) syms = map fst ds) in S2. rewrite <- S2. exact ND. }
    assert (W : without (n_name (nodes c id)) (mkL ti cl ((n, t) :: ds)) = mkL ti cl ds).
    { unfold without. cbn [title is_class defs]. rewrite S1, first_gone by exact ND'. reflexivity. }
    cbn [set_at] in G1. rewrite W in G1.
    assert (P : replaced (n_name (nodes c id)) (mkL ti cl ((n, t) :: ds)) = [t]).
    { unfold replaced, meaning. cbn [defs find]. unfold is_name at 1. cbn [fst]. rewrite S1. destruct (list_eq_dec N.eq_dec n n); [reflexivity|congruence]. }
    rewrite P in G2.
    destruct (scopes c) as [|s0 rest] eqn:SC; [discriminate|]. cbn [set_at] in F1.
    destruct (IH (fst (gone c 0 s id)) ls (mkC (c_title s) (c_class s) (c_layer s) syms) (mkL ti cl ds) G1) as (c' & u & A1 & A2 & A3 & A4);
      [rewrite F1; reflexivity|reflexivity|].
    exists c', u. split; [|split; [exact A2|split; [rewrite A3, F1; reflexivity|exact A4]]].
    cbn [drop_all]. unfold rbind in *. destruct (leave_scope c 0 id) as [c1|]; [|discriminate].
    destruct (leave_bucket c1 (n_bucket (nodes c1 id)) id) as [c2|]; [|discriminate].
    assert (Q' : free_node c2 id true = gone c 0 s id) by congruence. rewrite Q'.
    rewrite (surjective_pairing (gone c 0 s id)). rewrite A1, G2. cbn [fst snd defs map app]. reflexivity.
Qed.

Lemma pop_ok : forall c ls l, R c (l :: ls) -> exists c', pop c = Ok (c', map snd (defs l)) /\ R c' ls.
Proof.
  intros c ls l H. pose proof (r_len _ _ H) as L. unfold pop. destruct (scopes c) as [|s rest] eqn:S; [discriminate|].
  destruct (drop_all_ok (c_syms s) c ls s l H) as (c' & u & A1 & A2 & A3 & A4); [now rewrite S|reflexivity|].
  rewrite A1. cbn [rbind fst snd]. eexists. split; [reflexivity|]. rewrite S in A3. cbn [tl] in A3. rewrite A3. cbn [tl].
  assert (SH : forall j v, nth_error rest j = Some v -> nth_error (scopes c') (Datatypes.S j) = Some v) by (intros j v J; rewrite A3; exact J).
  assert (LV : forall x, live (mkX (nodes c') (buckets c') rest (spare c') (count c') (made c')) x <-> live c' x).
  { intros x. unfold live. cbn [scopes]. rewrite A3. split.
    - intros (j & v & J & X). exists (Datatypes.S j), v. auto.
    - intros ([|j] & v & J & X); cbn [nth_error] in J; [assert (v = u) by congruence; subst v; rewrite A4 in X; destruct X|]. exists j, v. auto. }
  pose proof (r_len _ _ A2) as L2. rewrite A3 in L2. cbn [length] in L2.
  destruct A2 as [h1 h2 h3 h4 h5 h6 h7 h8 h9 h10]. split; cbn [nodes buckets scopes spare count made]; auto.
  - intros j v m J M. apply (h2 (Datatypes.S j)); [apply SH, J|exact M].
  - intros j v J. rewrite (h3 _ _ (SH _ _ J)), A3. cbn [length]. f_equal.
  - intros j v x J X. apply (h4 _ _ _ (SH _ _ J) X).
  - intros j v J. apply (h5 _ _ (SH _ _ J)).
  - intros b x. rewrite LV. apply h6.
  - cbn [length] in h10. lia.
Qed.

(** ** A scope begins *)

Lemma push_ok : forall c ls t k, R c ls ->
  match push c t k with
  | Some c' => (length ls < 1025)%nat /\ R c' (mkL t k [] :: ls)
  | None => (length ls >= 1025)%nat
  end.
Proof.
  intros c ls t k H. pose proof (r_len _ _ H) as L. pose proof (r_layer _ _ H) as LY.
  assert (G : forall y, (length ls < 1025)%nat -> y = N.of_nat (Datatypes.S (length (scopes c))) ->
    R (mkX (nodes c) (buckets c) (mkC t k y [] :: scopes c) (spare c) (count c) (made c)) (mkL t k [] :: ls)).
  { intros y B Y. assert (LV : forall x, live (mkX (nodes c) (buckets c) (mkC t k y [] :: scopes c) (spare c) (count c) (made c)) x <-> live c x).
    { intros x. unfold live. cbn [scopes]. split.
      - intros ([|j] & v & J & X); cbn [nth_error] in J; [|exists j, v; auto]. assert (v = mkC t k y []) by congruence. subst v. destruct X.
      - intros (j & v & J & X). exists (Datatypes.S j), v. auto. }
    destruct H as [h1 h2 h3 h4 h5 h6 h7 h8 h9 h10]. split; cbn [nodes buckets scopes spare count made]; auto.
    - cbn [length]. lia.
    - intros [|j] v m J M; cbn [nth_error] in J, M; [|apply (h2 _ _ _ J M)]. assert (v = mkC t k y []) by congruence. assert (m = mkL t k []) by congruence. subst. repeat split.
    - intros [|j] v J; cbn [nth_error length] in *; [assert (v = mkC t k y []) by congruence; subst; cbn [c_layer]; lia|]. rewrite (h3 _ _ J). f_equal.
    - intros [|j] v x J X; cbn [nth_error] in J; [assert (v = mkC t k y []) by congruence; subst; destruct X|]. apply (h4 _ _ _ J X).
    - intros [|j] v J; cbn [nth_error] in J; [assert (v = mkC t k y []) by congruence; subst; constructor|]. apply (h5 _ _ J).
    - intros b x. rewrite LV. apply h6. }
  unfold push. destruct (scopes c) as [|s r] eqn:S.
  - assert (length ls = 0)%nat by (cbn [length] in L; lia). split; [lia|]. apply G; [lia|reflexivity].
  - destruct (Nat.leb_spec (length (s :: r)) 1024) as [B|B].
    + split; [lia|]. apply G; [lia|]. rewrite (LY 0%nat s eq_refl). cbn [length]. lia.
    + lia.
Qed.

(** ** A name is defined *)

Lemma new_node_ok : forall c ls m, R c ls ->
  match new_node c m with
  | None => m = false
  | Some (c', id) => R c' ls /\ ~ live c' id /\ ~ In id (spare c') /\ id < made c' /\ scopes c' = scopes c
  end.
Proof.
  intros c ls m H. pose proof H as [h1 h2 h3 h4 h5 h6 [h7a h7b] h8 [h9a h9b] h10]. unfold new_node. destruct (spare c) as [|id r] eqn:S.
  - destruct m; [|reflexivity]. split; [|split; [|split; [intros []|split; [cbn [made]; lia|reflexivity]]]].
    + split; cbn [nodes buckets scopes spare count made]; rewrite ?S; auto.
      intros j v x J X. destruct (h4 _ _ _ J X) as (A & B & C & D). rewrite ?S in *. repeat split; auto. lia.
    + intros (j & v & J & X). cbn [scopes] in J. destruct (h4 _ _ _ J X) as (_ & B & _). lia.
  - apply NoDup_cons_iff in h7a. destruct h7a as [n1 n2]. apply Forall_cons_iff in h7b. destruct h7b as [b1 b2]. apply Forall_cons_iff in h8. destruct h8 as [t1 t2].
    cbn [length] in h9a. split; [|split; [|split; [exact n1|split; [exact b1|reflexivity]]]].
    + split; cbn [nodes buckets scopes spare count made]; auto.
      * intros j v x J X. destruct (h4 _ _ _ J X) as (A & B & C & D). rewrite ?S in *. repeat split; auto. intros Z. apply D. now right.
      * replace (count c + (2 ^ 16 - 1)) with (count c - 1 + 1 * 2 ^ 16) by lia. rewrite N.mod_add by lia. rewrite N.mod_small by lia. lia.
    + intros (j & v & J & X). cbn [scopes] in J. destruct (h4 _ _ _ J X) as (_ & _ & _ & D). apply D. rewrite ?S. now left.
Qed.

(** A symbol that is in no chain may be written. *)
Lemma write_free : forall c ls id n, R c ls -> ~ live c id -> ~ In id (spare c) ->
  R (mkX (put (nodes c) id n) (buckets c) (scopes c) (spare c) (count c) (made c)) ls.
Proof.
  intros c ls id n H L S.
  assert (O : forall j s x, nth_error (scopes c) j = Some s -> In x (c_syms s) -> put (nodes c) id n x = nodes c x).
  { intros j s x J X. apply put_other. intros ->. apply L. exists j, s. auto. }
  destruct H as [h1 h2 h3 h4 h5 h6 h7 h8 h9 h10]. split; cbn [nodes buckets scopes spare count made]; auto.
  - intros j s l J M. destruct (h2 _ _ _ J M) as (A & B & C). repeat split; [exact A|exact B|]. cbn [nodes]. rewrite <- C. apply map_ext_in. intros x X. now rewrite (O _ _ _ J X).
  - intros j s x J X. rewrite (O _ _ _ J X). apply (h4 _ _ _ J X).
  - intros j s J. rewrite (map_ext_in _ (fun x => n_name (nodes c x))); [apply (h5 _ _ J)|]. intros x X. now rewrite (O _ _ _ J X).
  - intros b x. unfold live. cbn [scopes]. destruct (N.eq_dec x id) as [->|D].
    + rewrite put_same. split; [|intros [X _]; contradiction]. intros X. apply h6 in X. destruct X. contradiction.
    + rewrite put_other by exact D. apply h6.
  - apply Forall_forall. intros x X. rewrite Forall_forall in h8. rewrite put_other; [auto|]. intros ->. contradiction.
Qed.

Lemma enter_ok : forall c ls k s l id t name, R c ls -> nth_error (scopes c) k = Some s -> nth_error ls k = Some l ->
  ~ live c id -> ~ In id (spare c) -> id < made c -> nodes c id = mkN name (Some t) (c_layer s) (bucket_of name (c_layer s)) ->
  find (is_name name) (defs l) = None ->
  exists c', enter_scope (enter_bucket c (bucket_of name (c_layer s)) id) k id = Ok c' /\ R c' (set_at k (mkL (title l) (is_class l) (defs l ++ [(name, t)])) ls).
Proof.
  intros c ls k s l id t name H K L NL NS IM E NF. unfold enter_scope, enter_bucket. cbn [nodes buckets scopes spare count made]. rewrite K.
  eexists. split; [reflexivity|].
  set (u := mkC (c_title s) (c_class s) (c_layer s) (c_syms s ++ [id])).
  assert (KN : forall j v, nth_error (set_at k u (scopes c)) j = Some v -> (j = k /\ v = u) \/ (j <> k /\ nth_error (scopes c) j = Some v)).
  { intros j v J. destruct (Nat.eq_dec j k) as [->|D]; [left; rewrite (set_at_same _ _ _ _ _ K) in J; split; congruence|right; rewrite set_at_other in J by exact D; auto]. }
  assert (LV : forall x, live (mkX (nodes c) (put (buckets c) (bucket_of name (c_layer s)) (buckets c (bucket_of name (c_layer s)) ++ [id])) (set_at k u (scopes c)) (spare c) (count c) (made c)) x <-> live c x \/ x = id).
  { intros x. unfold live. cbn [scopes]. split.
    - intros (j & v & J & X). destruct (KN _ _ J) as [[-> ->]|[D J']]; [|left; exists j, v; auto]. cbn [u c_syms] in X. apply in_app_or in X.
      destruct X as [X|[X|[]]]; [left; exists k, s; auto|right; auto].
    - intros [(j & v & J & X)| ->].
      + destruct (Nat.eq_dec j k) as [->|D]; [|exists j, v; rewrite set_at_other by exact D; auto]. assert (v = s) by congruence. subst v.
        exists k, u. split; [eapply set_at_same, K|]. cbn [u c_syms]. apply in_or_app. auto.
      + exists k, u. split; [eapply set_at_same, K|]. cbn [u c_syms]. apply in_or_app. right. now left. }
  destruct (r_shows _ _ H _ _ _ K L) as (S1 & S2 & S3).
  assert (FN : forall x, In x (c_syms s) -> n_name (nodes c x) <> name).
  { intros x X Q. assert (Y : In (n_name (nodes c x), n_thing (nodes c x)) (map (fun d : list N * thing => (fst d, Some (snd d))) (defs l))).
    { rewrite <- S3. apply (in_map (fun id => (n_name (nodes c id), n_thing (nodes c id)))), X. }
    apply in_map_iff in Y. destruct Y as (d & Y & Z). pose proof (find_none _ _ NF d Z) as W. unfold is_name in W.
    pose proof (f_equal fst Y) as Y1. cbn [fst] in Y1. destruct (list_eq_dec N.eq_dec (fst d) name); [discriminate|congruence]. }
  destruct H as [h1 h2 h3 h4 h5 h6 h7 h8 h9 h10]. split; cbn [nodes buckets scopes spare count made]; rewrite ?set_at_length; auto.
  - intros j v m J M. destruct (KN _ _ J) as [[-> ->]|[D J']].
    + rewrite (set_at_same _ _ _ _ _ L) in M. assert (EM : mkL (title l) (is_class l) (defs l ++ [(name, t)]) = m) by congruence. subst m.
      repeat split; [exact S1|exact S2|]. cbn [u c_syms defs nodes]. rewrite !map_app, S3. cbn [map fst snd]. rewrite E. reflexivity.
    + rewrite set_at_other in M by exact D. apply (h2 _ _ _ J' M).
  - intros j v J. destruct (KN _ _ J) as [[-> ->]|[D J']]; [cbn [u c_layer]; auto|auto].
  - intros j v x J X. destruct (KN _ _ J) as [[-> ->]|[D J']]; [|apply (h4 _ _ _ J' X)]. cbn [u c_syms c_layer] in *. apply in_app_or in X.
    destruct X as [X|[<-|[]]]; [apply (h4 _ _ _ K X)|]. rewrite E. cbn [n_layer n_bucket n_name]. repeat split; auto.
  - intros j v J. destruct (KN _ _ J) as [[-> ->]|[D J']]; [|apply (h5 _ _ J')]. cbn [u c_syms]. rewrite map_app. cbn [map]. rewrite E. cbn [n_name].
    apply (Permutation_NoDup (Permutation_cons_append _ _)). constructor; [|apply (h5 _ _ K)]. intros X. apply in_map_iff in X. destruct X as (x & X & Y). apply (FN x Y X).
  - intros b x. rewrite LV. unfold put. destruct (N.eqb_spec b (bucket_of name (c_layer s))) as [->|B].
    + rewrite in_app_iff, h6. cbn [In]. split.
      * intros [[A C]|[<-|[]]]; [auto|]. rewrite E. auto.
      * intros [[A| ->] C]; auto.
    + rewrite h6. split; [intros [A C]; auto|]. intros [[A| ->] C]; [auto|]. rewrite E in C. cbn [n_bucket] in C. congruence.
Qed.

Lemma filter_all : forall A (f : A -> bool) l, (forall x, In x l -> f x = true) -> filter f l = l.
Proof. induction l as [|x l IH]; intros H; cbn [filter]; [reflexivity|]. rewrite H by now left. f_equal. apply IH. intros. apply H. now right. Qed.
Lemma set_at_twice : forall A (l : list A) k x y, set_at k x (set_at k y l) = set_at k x l.
Proof. induction l; intros [|k] x y; cbn [set_at]; congruence. Qed.

Lemma without_find : forall name l, find (is_name name) (defs (without name l)) = None.
Proof.
  intros name l. unfold without. cbn [defs]. destruct (find _ _) as [d|] eqn:F; [|reflexivity]. apply find_some in F. destruct F as [F1 F2].
  apply filter_In in F1. destruct F1 as [_ F1]. rewrite F2 in F1. discriminate.
Qed.

Lemma join_ok : forall c ls k name t m, R c ls ->
  match join c k name t m with
  | Ok (c', None) => m = false /\ R c' ls
  | Ok (c', Some a) => exists l, nth_error ls k = Some l /\ a = replaced name l /\ R c' (set_at k (define name t l) ls)
  | Fault _ => nth_error ls k = None
  end.
Proof.
  intros c0 ls k name t m H0. unfold join. pose proof (new_node_ok c0 ls m H0) as NN. destruct (new_node c0 m) as [[c1 id]|]; [|auto].
  destruct NN as (H & NL & NS & IM & _). clear c0 H0. destruct (nth_error (scopes c1) k) as [s|] eqn:K.
  2:{ apply nth_error_None. apply nth_error_None in K. rewrite <- (r_len _ _ H). exact K. }
  assert (KL : exists l, nth_error ls k = Some l).
  { destruct (nth_error ls k) eqn:Q; [eauto|]. apply nth_error_None in Q. rewrite <- (r_len _ _ H) in Q. apply nth_error_None in Q. congruence. }
  destruct KL as [l L]. pose proof (write_free c1 ls id (mkN name (Some t) (c_layer s) (bucket_of name (c_layer s))) H NL NS) as HW.
  set (c := mkX _ _ _ _ _ _) in *.
  assert (E : nodes c id = mkN name (Some t) (c_layer s) (bucket_of name (c_layer s))) by (cbn [c nodes]; apply put_same).
  assert (K' : nth_error (scopes c) k = Some s) by exact K.
  assert (NL' : ~ live c id) by exact NL. assert (NS' : ~ In id (spare c)) by exact NS. assert (IM' : id < made c) by exact IM.
  clearbody c. clear c1 H NL NS IM K.
  pose proof (find_in_ok c ls k s name HW K') as F. destruct (find_in c name (c_layer s)) as [old|].
  - destruct F as [FI FN]. destruct (leave_both c ls k s old HW K' FI) as [_ Q]. rewrite Q. cbn [rbind]. clear Q.
    destruct (gone_ok c ls k s l old HW K' L FI) as (G1 & G2 & G3 & G4 & G5 & G6). rewrite FN in *.
    assert (ON : id <> old) by (intros ->; apply NL'; exists k, s; auto).
    destruct (gone_fields c k s old) as (F1 & _).
    destruct (enter_ok (fst (gone c k s old)) (set_at k (without name l) ls) k (mkC (c_title s) (c_class s) (c_layer s) (remove N.eq_dec old (c_syms s))) (without name l) id t name G1) as (c' & A1 & A2).
    + rewrite F1. eapply set_at_same, K'.
    + eapply set_at_same, L.
    + rewrite G5. tauto.
    + intros X. destruct (G6 _ X); [contradiction|congruence].
    + rewrite G3. exact IM'.
    + rewrite G4 by exact ON. exact E.
    + apply without_find.
    + cbn [c_layer] in A1. rewrite A1. cbn [rbind]. exists l. rewrite G2. split; [exact L|]. split; [reflexivity|].
      rewrite set_at_twice in A2. exact A2.
  - cbn [rbind fst snd]. destruct (r_shows _ _ HW _ _ _ K' L) as (_ & _ & S3). pose proof (find_defs_none _ _ name _ _ S3 F) as NF.
    destruct (enter_ok c ls k s l id t name HW K' L NL' NS' IM' E NF) as (c' & A1 & A2). rewrite A1. cbn [rbind]. exists l. split; [exact L|].
    unfold replaced, meaning. rewrite NF. split; [reflexivity|]. unfold define. rewrite filter_all; [exact A2|].
    intros d D. rewrite (find_none _ _ NF d D). reflexivity.
Qed.

(** ** Histories *)

Lemma is_local_ok : forall name, is_local name = negb (capital name).
Proof. intros [|b r]; [reflexivity|]. unfold is_local, capital. f_equal. lia. Qed.

Lemma class_ok : forall c ls, R c ls ->
  match class c with Ok p => follows1 ls Class (In_class p) ls | Fault _ => ~ proper ls Class end.
Proof.
  intros c ls H. pose proof (r_len _ _ H) as L. unfold class. destruct (scopes c) as [|s r] eqn:S, ls as [|l q]; cbn [length] in L; try discriminate; [intros []|].
  destruct (r_shows _ _ H 0%nat s l) as (T & C & _); [now rewrite S|reflexivity|]. cbn [follows1 proper]. rewrite C, T. destruct (is_class l).
  2:{ auto. }
  destruct r as [|u r], q as [|v q]; cbn [length] in L; try discriminate; [intros X; now apply X|].
  destruct (title l) as [name|]; [|intros X; now apply X].
  destruct (node_in_ok c (l :: v :: q) 1 u v name H) as [A _]; [now rewrite S|reflexivity|]. rewrite A.
  destruct (meaning name v) as [[[] p]|] eqn:M.
  - intros X. now apply (X eq_refl p).
  - split; [reflexivity|]. exists (Some p). auto.
  - split; [reflexivity|]. exists None. auto.
Qed.

Lemma step_ok : forall c ls o, R c ls ->
  match step c o with Ok (c', a) => exists ls', follows1 ls o a ls' /\ R c' ls' | Fault _ => ~ proper ls o end.
Proof.
  intros c ls o H. destruct o as [t k| |name t m|name t m|name local|name|]; cbn [step].
  - pose proof (push_ok c ls t k H) as P. cbn [follows1]. destruct (push c t k) as [c'|].
    + destruct P as [P1 P2]. exists (mkL t k [] :: ls). destruct (Nat.ltb_spec (length ls) 1025); [auto|lia].
    + exists ls. destruct (Nat.ltb_spec (length ls) 1025); [lia|auto].
  - destruct ls as [|l ls].
    + pose proof (r_len _ _ H) as L. unfold pop. destruct (scopes c); [|discriminate]. cbn [rbind]. exists []. cbn [follows1]. auto.
    + destruct (pop_ok c ls l H) as (c' & P & Q). rewrite P. cbn [rbind]. exists ls. cbn [follows1]. auto.
  - pose proof (join_ok c ls 0 name t m H) as J. destruct (join c 0 name t m) as [[c' [a|]]|]; cbn [rbind snd follows1 proper].
    + destruct J as (l & J1 & J2 & J3). destruct ls as [|l' ls]; [discriminate|]. cbn [nth_error] in J1. assert (l' = l) by congruence. subst.
      cbn [set_at] in J3. exists (define name t l :: ls). auto.
    + destruct J. exists ls. auto.
    + destruct ls; [|discriminate]. tauto.
  - pose proof (join_ok c ls 1 name t m H) as J. destruct (join c 1 name t m) as [[c' [a|]]|]; cbn [rbind snd follows1 proper].
    + destruct J as (l & J1 & J2 & J3). destruct ls as [|x [|l' ls]]; try discriminate. cbn [nth_error] in J1. assert (l' = l) by congruence. subst.
      cbn [set_at] in J3. exists (x :: define name t l :: ls). auto.
    + destruct J. exists ls. auto.
    + apply nth_error_None in J. lia.
  - exists ls. cbn [follows1]. rewrite (search_ok c ls name local H). auto.
  - exists ls. cbn [follows1]. rewrite (search_ok c ls name _ H), is_local_ok. auto.
  - pose proof (class_ok c ls H) as C. destruct (class c); cbn [rbind]; [|exact C]. exists ls. auto.
Qed.

Lemma run_ok : forall os c ls, R c ls ->
  match run c os with
  | Ok (c', outs) => exists ls', follows ls os outs ls' /\ R c' ls'
  | Fault _ => exists pre o post outs ls', os = pre ++ o :: post /\ follows ls pre outs ls' /\ ~ proper ls' o
  end.
Proof.
  induction os as [|o os IH]; intros c ls H; cbn [run].
  - exists ls. split; [reflexivity|exact H].
  - pose proof (step_ok c ls o H) as S. destruct (step c o) as [[c1 a]|f]; cbn [rbind fst snd].
    + destruct S as (l1 & F1 & H1). specialize (IH c1 l1 H1). destruct (run c1 os) as [[c2 outs]|f]; cbn [rbind fst snd].
      * destruct IH as (l2 & F2 & H2). exists l2. cbn [follows]. eauto.
      * destruct IH as (pre & o' & post & outs & l2 & E & F2 & N). exists (o :: pre), o', post, (a :: outs), l2. rewrite E. cbn [follows]. eauto 8.
    + exists [], o, os, [], ls. cbn [follows]. auto.
Qed.

Lemma new_ok : forall n0 t, R (new n0 t) [mkL (Some t) false []].
Proof.
  intros n0 t. unfold new. split; cbn [nodes buckets scopes spare count made length]; auto.
  - intros [|[|k]] s l J M; cbn [nth_error] in J, M; try discriminate. assert (E1 : mkC (Some t) false 1 [] = s) by congruence. assert (E2 : mkL (Some t) false [] = l) by congruence. subst. repeat split.
  - intros [|[|k]] s J; cbn [nth_error] in J; try discriminate. assert (E1 : mkC (Some t) false 1 [] = s) by congruence. now subst.
  - intros [|[|k]] s x J X; cbn [nth_error] in J; try discriminate. assert (E1 : mkC (Some t) false 1 [] = s) by congruence. subst. destruct X.
  - intros [|[|k]] s J; cbn [nth_error] in J; try discriminate. assert (E1 : mkC (Some t) false 1 [] = s) by congruence. subst. constructor.
  - intros b x. split; [intros []|]. intros [([|[|k]] & s & J & X) _]; cbn [scopes nth_error] in J; try discriminate. assert (E1 : mkC (Some t) false 1 [] = s) by congruence. subst. destruct X.
  - split; constructor.
  - split; [reflexivity|lia].
  - lia.
Qed.

(** ** What is given up *)

Definition lives (ls : list level) : list thing := flat_map (fun l => map snd (defs l)) ls.

Lemma define_lives : forall name t l, NoDup (map fst (defs l)) ->
  Permutation (t :: map snd (defs l)) (replaced name l ++ map snd (defs (define name t l))).
Proof.
  intros name t l. unfold define, replaced, meaning. cbn [defs]. generalize (defs l). clear l. intros ds ND. rewrite map_app. cbn [map snd].
  assert (P : Permutation (map snd ds) (match option_map snd (find (is_name name) ds) with Some t => [t] | None => [] end ++ map snd (filter (fun d => negb (is_name name d)) ds))).
  { induction ds as [|[n u] ds IH]; [reflexivity|]. cbn [map] in ND. apply NoDup_cons_iff in ND. destruct ND as [N1 N2]. cbn [find filter map snd].
    unfold is_name at 1 3. cbn [fst] in *. destruct (list_eq_dec N.eq_dec n name) as [->|].
    - cbn [option_map snd negb app]. rewrite filter_all; [reflexivity|]. intros d D. unfold is_name. destruct (list_eq_dec N.eq_dec (fst d) name) as [Q|]; [|reflexivity].
      exfalso. apply N1. rewrite <- Q. apply in_map, D.
    - cbn [negb map snd]. rewrite (IH N2). destruct (option_map snd _); [|reflexivity]. apply perm_swap. }
  rewrite P. rewrite app_assoc. apply Permutation_cons_append.
Qed.

Lemma names_ok : forall c ls l, R c ls -> In l ls -> NoDup (map fst (defs l)).
Proof.
  intros c ls l H I. apply In_nth_error in I. destruct I as [k K].
  destruct (nth_error (scopes c) k) as [s|] eqn:S.
  - destruct (r_shows _ _ H _ _ _ S K) as (_ & _ & E). apply (f_equal (map fst)) in E. rewrite !map_map in E. change (map (fun x => n_name (nodes c x)) (c_syms s) = map fst (defs l)) in E. rewrite <- E. apply (r_names _ _ H _ _ S).
  - apply nth_error_None in S. rewrite (r_len _ _ H) in S. apply nth_error_None in S. congruence.
Qed.

Lemma follows1_lives : forall ls o a ls', (forall l, In l ls -> NoDup (map fst (defs l))) -> follows1 ls o a ls' ->
  Permutation (taken o a ++ lives ls) (given_up a ++ lives ls').
Proof.
  intros ls o a ls' ND F. destruct o as [t k| |name t m|name t m|name local|name|]; cbn [follows1] in F.
  - destruct (Nat.ltb (length ls) 1025); destruct F as [-> ->]; reflexivity.
  - destruct ls as [|l r]; destruct F as [-> ->]; reflexivity.
  - destruct F as [(-> & _ & ->)|F]; [reflexivity|]. destruct ls as [|l r]; [contradiction|]. destruct F as [-> ->].
    cbn [taken given_up lives flat_map]. fold (lives r). rewrite !app_assoc. apply Permutation_app_tail. apply (define_lives name t l). apply ND. now left.
  - destruct F as [(-> & _ & ->)|F]; [reflexivity|]. destruct ls as [|x [|l r]]; try contradiction. destruct F as [-> ->].
    cbn [taken given_up lives flat_map]. fold (lives r).
    pose proof (define_lives name t l (ND l (or_intror (or_introl eq_refl)))) as D.
    rewrite !(app_assoc (map snd (defs x))). 
    transitivity ((map snd (defs x) ++ (t :: map snd (defs l))) ++ lives r).
    + cbn [app]. rewrite <- !app_assoc. cbn [app]. apply Permutation_middle.
    + rewrite D, !app_assoc. apply Permutation_app_tail. rewrite <- !app_assoc. rewrite !(app_assoc _ _ (map snd _)). apply Permutation_app_tail, Permutation_app_comm.
  - destruct F as [-> ->]. reflexivity.
  - destruct F as [-> ->]. reflexivity.
  - destruct F as [-> F]. destruct ls as [|l r]; [contradiction|]. destruct (is_class l); [|subst a; reflexivity].
    destruct r, (title l); try contradiction. destruct F as (p & -> & _). reflexivity.
Qed.

Lemma run_lives : forall os c ls c' outs, R c ls -> run c os = Ok (c', outs) ->
  exists ls', R c' ls' /\ Permutation (all_taken os outs ++ lives ls) (flat_map given_up outs ++ lives ls').
Proof.
  induction os as [|o os IH]; intros c ls c' outs H E; cbn [run] in E.
  - assert (c = c') by congruence. assert (outs = []) by congruence. subst. exists ls. split; [exact H|reflexivity].
  - pose proof (step_ok c ls o H) as S. destruct (step c o) as [[c1 a]|f]; cbn [rbind fst snd] in E; [|discriminate].
    destruct S as (l1 & F1 & H1). destruct (run c1 os) as [[c2 outs1]|f] eqn:Q; cbn [rbind fst snd] in E; [|discriminate].
    assert (c2 = c') by congruence. assert (outs = a :: outs1) by congruence. subst. destruct (IH _ _ _ _ H1 Q) as (l2 & H2 & P).
    exists l2. split; [exact H2|]. cbn [all_taken flat_map].
    pose proof (follows1_lives ls o a l1 (fun l I => names_ok c ls l H I) F1) as D.
    rewrite <- !app_assoc, <- P. rewrite (Permutation_app_comm (all_taken os outs1) (lives ls)), app_assoc, D, <- app_assoc.
    apply Permutation_app_head, Permutation_app_comm.
Qed.

Lemma pop_all_ok : forall ls c, R c ls -> exists c', pop_all (length ls) c = Ok (c', lives ls) /\ R c' [].
Proof.
  induction ls as [|l ls IH]; intros c H; cbn [length pop_all].
  - exists c. auto.
  - destruct (pop_ok c ls l H) as (c1 & P & H1). rewrite P. cbn [rbind fst snd]. destruct (IH c1 H1) as (c2 & Q & H2). rewrite Q. cbn [rbind fst snd]. eauto.
Qed.

Lemma free_all_ok : forall l c, Forall (fun id => n_thing (nodes c id) = None) l -> snd (free_all c l) = [] /\ buckets (fst (free_all c l)) = buckets c.
Proof.
  induction l as [|id l IH]; intros c H; cbn [free_all]; [auto|]. apply Forall_cons_iff in H. destruct H as [H1 H2].
  unfold free_node. cbn [andb]. rewrite H1.
  set (c1 := mkX _ _ _ _ _ _). destruct (IH c1) as [A B].
  - apply Forall_forall. intros x X. rewrite Forall_forall in H2. cbn [c1 nodes]. unfold put. destruct (N.eqb_spec x id); [reflexivity|auto].
  - destruct (free_all c1 l) as [c2 b]. cbn [fst snd] in *. split; [rewrite A; reflexivity|exact B].
Qed.

Lemma close_ok : forall c ls, R c ls -> close c = Ok (lives ls).
Proof.
  intros c ls H. unfold close. rewrite (r_len _ _ H). destruct (pop_all_ok ls c H) as (c1 & P & H1). rewrite P. cbn [rbind fst snd].
  destruct (free_all_ok (spare c1) c1 (r_null _ _ H1)) as [A B]. destruct (free_all c1 (spare c1)) as [c2 a]. cbn [fst snd] in A, B. subst a.
  assert (E : forall b, buckets c1 b = []).
  { intros b. destruct (buckets c1 b) as [|x r] eqn:Q; [reflexivity|]. exfalso. assert (X : In x (buckets c1 b)) by (rewrite Q; now left).
    apply (r_bucket _ _ H1) in X. destruct X as [(j & s & J & _) _]. pose proof (r_len _ _ H1) as L. destruct (scopes c1); [|discriminate]. destruct j; discriminate. }
  assert (Z : flat_map (fun i => rev (buckets c2 (N.of_nat i))) (seq 0 371) = []).
  { rewrite B. generalize (seq 0 371). induction l as [|i l IH]; [reflexivity|]. cbn [flat_map]. rewrite E. exact IH. }
  rewrite Z. cbn [free_all app]. now rewrite app_nil_r.
Qed.

(** ** A call leaves no trace *)

Lemma follows_app : forall os1 outs ls ls' os2, follows ls (os1 ++ os2) outs ls' ->
  exists o1 o2 l, outs = o1 ++ o2 /\ follows ls os1 o1 l /\ follows l os2 o2 ls'.
Proof.
  induction os1 as [|o os1 IH]; intros outs ls ls' os2 F.
  - exists [], outs, ls. cbn [follows]. auto.
  - destruct outs as [|a outs]; [destruct F|]. cbn [follows app] in F. destruct F as (l1 & F1 & F2). destruct (IH _ _ _ _ F2) as (o1 & o2 & l & -> & A & B).
    exists (a :: o1), o2, l. cbn [follows app]. eauto.
Qed.

Lemma inside_ok : forall os outs d e ls ls' below, inside d os outs e -> length ls = d -> follows (ls ++ below) os outs ls' ->
  exists top, ls' = top ++ below /\ length top = e.
Proof.
  induction os as [|o os IH]; intros [|a outs] d e ls ls' below I L F; cbn [inside follows] in I, F; try contradiction.
  - subst. exists ls. auto.
  - destruct F as (l1 & F1 & F2). destruct o as [t k| |name t m|name t m|name local|name|]; cbn [follows1] in F1.
    + destruct (Nat.ltb _ _); destruct F1 as [-> ->].
      * apply (IH outs (S d) e (mkL t k [] :: ls)); [exact I|cbn [length]; lia|exact F2].
      * apply (IH outs d e ls); auto.
    + destruct I as [D I]. destruct ls as [|l ls]; cbn [length] in L; [lia|]. cbn [app] in F1. destruct F1 as [-> ->].
      apply (IH outs (d - 1)%nat e ls); auto. lia.
    + destruct I as [D I]. destruct F1 as [(-> & _ & ->)|F1]; [apply (IH outs d e ls); auto|].
      destruct ls as [|l ls]; cbn [length] in L; [lia|]. cbn [app] in F1. destruct F1 as [-> ->]. apply (IH outs d e (define name t l :: ls)); auto.
    + destruct I as [D I]. destruct F1 as [(-> & _ & ->)|F1]; [apply (IH outs d e ls); auto|].
      destruct ls as [|x [|l ls]]; cbn [length] in L; try lia. cbn [app] in F1. destruct F1 as [-> ->]. apply (IH outs d e (x :: define name t l :: ls)); auto.
    + destruct F1 as [-> ->]. apply (IH outs d e ls); auto.
    + destruct F1 as [-> ->]. apply (IH outs d e ls); auto.
    + destruct F1 as [-> _]. apply (IH outs d e ls); auto.
Qed.

Lemma call_ok : forall c ls os c' outs, R c ls -> run c os = Ok (c', outs) -> inside 0 os outs 0 ->
  forall name local, thing_of c' (search c' name local) = thing_of c (search c name local).
Proof.
  intros c ls os c' outs H E I name local. pose proof (run_ok os c ls H) as Q. rewrite E in Q. destruct Q as (ls' & F & H').
  destruct (inside_ok os outs 0 0 [] ls' ls I eq_refl F) as (top & -> & L). destruct top; [|discriminate]. cbn [app] in *.
  rewrite (search_ok c' ls name local H'), (search_ok c ls name local H). reflexivity.
Qed.

(** Looking up names in the trees of a configuration. *)
Require Import List Arith NArith ZArith Bool Lia.
Require Import ZifyBool ZifyNat ZifyN.
Require Import Verif.Base Verif.ChainModel Verif.RbModel Verif.RbSpec Verif.RbProofs Verif.StrModel Verif.StrProofs.
Require Import Verif.LexModel Verif.ExprModel Verif.LexSpec Verif.LexProofs Verif.ConfModel Verif.ConfSpec Verif.ConfProofs.
Import ListNotations.
Local Open Scope N_scope.
Local Notation bytes := LexModel.bytes.
Local Notation st0 := RbSpec.mkS.

Lemma aname_ascii : forall a : aname, ascii (proj1_sig a).
Proof.
  intros [s H]. cbn [proj1_sig]. unfold asciib in H. rewrite forallb_forall in H. apply Forall_forall. intros c C. apply H in C. lia.
Qed.
Lemma to_name_some : forall s, ascii s -> exists a, to_name s = Some a /\ proj1_sig a = s.
Proof.
  intros s A. unfold to_name. destruct (bool_dec (asciib s) true) as [p|p]; [eexists; split; reflexivity|]. elim p. unfold asciib. apply forallb_forall.
  intros c C. apply (proj1 (Forall_forall _ _) A) in C. cbn beta in C. lia.
Qed.
Lemma name_cmp_zero : forall a b, name_cmp a b = 0%Z <-> proj1_sig a = proj1_sig b.
Proof.
  intros a b. unfold name_cmp. rewrite strcmp_eq; [cbn; reflexivity| | |discriminate]; cbn [s_bytes]; apply ascii_bytes, aname_ascii.
Qed.
Lemma name_cmp_neg : forall a b, (name_cmp a b = - name_cmp b a)%Z.
Proof. intros a b. unfold name_cmp. rewrite !strcmp_cmpbytes by discriminate. cbn [s_bytes]. apply cmpbytes_antisym; apply aname_ascii. Qed.
Lemma name_cmp_trans : forall a b c, (name_cmp a b < 0 -> name_cmp b c < 0 -> name_cmp a c < 0)%Z.
Proof. intros a b c. unfold name_cmp. rewrite !strcmp_cmpbytes by discriminate. cbn [s_bytes]. apply cmpbytes_trans; apply aname_ascii. Qed.
Lemma name_cmp_l : forall a a' b, proj1_sig a = proj1_sig a' -> name_cmp a b = name_cmp a' b.
Proof. intros a a' b H. unfold name_cmp. rewrite H. reflexivity. Qed.
Lemma name_cmp_r : forall a b b', proj1_sig b = proj1_sig b' -> name_cmp a b = name_cmp a b'.
Proof. intros a b b' H. unfold name_cmp. rewrite H. reflexivity. Qed.
Lemma name_preorder : preorder name_cmp.
Proof.
  split.
  - intros a b. rewrite (name_cmp_neg a b). lia.
  - intros a b c H1 H2. destruct (Z.eq_dec (name_cmp a b) 0) as [E|E].
    + apply name_cmp_zero in E. rewrite (name_cmp_l a b c E). exact H2.
    + destruct (Z.eq_dec (name_cmp b c) 0) as [F|F].
      * apply name_cmp_zero in F. rewrite <- (name_cmp_r a b c F). exact H1.
      * pose proof (name_cmp_trans a b c). lia.
Qed.

Section Tree.
Context {A : Type}.
Definition after (s : state aname) (ops : list (rop aname)) : state aname := fold_left (spec_next name_cmp) ops s.
Lemma in_insert_sorted : forall a d l x, In x (insert_sorted name_cmp a d l) <-> x = (a, d) \/ In x l.
Proof.
  intros a d l; induction l as [|[b e] l IH]; intros x; cbn [insert_sorted].
  - cbn [In]. intuition.
  - destruct (name_cmp d e <? 0)%Z; cbn [In]; [intuition|]. rewrite IH. intuition.
Qed.
Lemma length_insert_sorted : forall a d l, length (insert_sorted name_cmp a d l) = S (length l).
Proof. intros a d l; induction l as [|[b e] l IH]; cbn [insert_sorted]; [reflexivity|]. destruct (name_cmp d e <? 0)%Z; cbn [length]; auto. Qed.

Lemma inserts_ok : forall (l : list (bytes * A)) n s, ascii_names l -> 1 <= n -> (forall a d, In (a, d) (sorted s) -> a < n) ->
  exists ops, inserts n l = Some ops /\ legal_run name_cmp s ops /\
    (forall a d, In (a, d) (sorted (after s ops)) <-> In (a, d) (sorted s) \/ exists i x, nth_error l i = Some x /\ a = n + N.of_nat i /\ to_name (fst x) = Some d) /\
    order (after s ops) = order s ++ map (fun i => n + N.of_nat i) (seq 0 (length l)) /\
    length (sorted (after s ops)) = (length (sorted s) + length l)%nat /\
    Forall (fun o => match o with RInsert _ _ => True | _ => False end) ops.
Proof.
  intros l; induction l as [|x l IH]; intros n s AN N B.
  - exists []. cbn. repeat split; auto; try (intros [H|(i & x & H & _)]; [exact H|destruct i; discriminate]); try (rewrite app_nil_r; reflexivity); lia.
  - destruct (to_name_some (fst x) (Forall_inv AN)) as (k & K1 & K2). pose (s1 := spec_next name_cmp s (RInsert n k)).
    destruct (IH (n + 1) s1 (Forall_inv_tail AN) ltac:(lia)) as (ops & O1 & O2 & O3 & O4 & O5 & O6).
    { intros a d I. cbn in I. apply in_insert_sorted in I. destruct I as [I|I]; [injection I as I1 I2; subst; lia|]. apply B in I. lia. }
    exists (RInsert n k :: ops). cbn [inserts]. rewrite K1. cbn [obind]. rewrite O1. split; [reflexivity|]. split.
    { split; [|exact O2]. cbn [legal]. split; [lia|]. intros I. apply in_map_iff in I. destruct I as ([a d] & I1 & I2). apply B in I2. cbn in I1. lia. }
    change (after s (RInsert n k :: ops)) with (after s1 ops). split; [|split; [|split; [|constructor; [exact I|exact O6]]]].
    + intros a d. rewrite O3. unfold s1. cbn [spec_next sorted]. rewrite in_insert_sorted. split.
      * intros [[E|E]|(i & y & I1 & I2 & I3)].
        -- injection E as E1 E2; subst. right. exists 0%nat, x. cbn. repeat split; auto. lia.
        -- auto.
        -- right. exists (S i), y. cbn [nth_error]. repeat split; auto. lia.
      * intros [E|(i & y & I1 & I2 & I3)]; [auto|]. destruct i as [|i]; cbn [nth_error] in I1.
        -- injection I1 as I1; subst y. left. left. rewrite K1 in I3. injection I3 as I3; subst. f_equal. lia.
        -- right. exists i, y. repeat split; auto. lia.
    + rewrite O4. unfold s1. cbn [spec_next order length]. rewrite <- app_assoc. f_equal. cbn [app]. rewrite <- cons_seq. cbn [map]. f_equal; [lia|].
      rewrite <- seq_shift, map_map. apply map_ext. intros i. lia.
    + rewrite O5. unfold s1. cbn [spec_next sorted length]. rewrite length_insert_sorted. lia.
Qed.
Lemma legal_run_app : forall ops s o, legal_run name_cmp s ops -> legal (after s ops) o -> legal_run name_cmp s (ops ++ [o]).
Proof. intros ops; induction ops as [|x ops IH]; intros s o H1 H2; cbn [app legal_run] in *; [auto|]. destruct H1 as [H1 H3]. split; [exact H1|]. apply IH; auto. Qed.
Lemma spec_run_last : forall ops s o outs s', Forall (fun o => match o with RInsert _ _ => True | _ => False end) ops ->
  spec_run name_cmp s (ops ++ [o]) outs s' -> exists s2, spec name_cmp (after s ops) o (last outs ONone) s2.
Proof.
  intros ops; induction ops as [|x ops IH]; intros s o outs s' F H; cbn [app] in H.
  - inversion H as [|? ? out s1 ? outs1 s2 S R]; subst. inversion R; subst. cbn [last]. exists s'. exact S.
  - inversion H as [|? ? out s1 ? outs1 s2 S R]; subst. pose proof (Forall_inv F) as X. destruct x; try contradiction. inversion S; subst.
    destruct (IH _ _ _ _ (Forall_inv_tail F) R) as (s2 & S2). exists s2. destruct outs1 as [|o1 outs1]; [|exact S2].
    inversion R as [|? ? ? ? ? ? ? ? R2 E1]; destruct ops; discriminate.
Qed.
Definition final (l : list (bytes * A)) (s : state aname) : Prop :=
  (forall a d, In (a, d) (sorted s) <-> exists i x, nth_error l i = Some x /\ a = 1 + N.of_nat i /\ to_name (fst x) = Some d) /\
  order s = map (fun i => 1 + N.of_nat i) (seq 0 (length l)) /\ length (sorted s) = length l.
Lemma ask_ok : forall (l : list (bytes * A)) o, ascii_names l -> (forall s, final l s -> legal s o) ->
  exists s s2 out, final l s /\ ask l o = Some out /\ spec name_cmp s o out s2.
Proof.
  intros l o AN LE. destruct (inserts_ok l 1 (st0 [] []) AN ltac:(lia) ltac:(intros a d [])) as (ops & O1 & O2 & O3 & O4 & O5 & O6).
  assert (FI : final l (after (st0 [] []) ops)) by (split; [intros a d; rewrite O3; cbn; intuition|split; assumption]).
  destruct (refines_ok aname name_cmp no_tree (ops ++ [o]) name_preorder (legal_run_app ops _ o O2 (LE _ FI))) as (t & outs & s & R1 & R2).
  destruct (spec_run_last ops _ o outs s O6 R2) as (s2 & S2). exists (after (st0 [] []) ops), s2, (last outs ONone). split; [exact FI|]. split; [|exact S2].
  unfold ask. rewrite O1. cbn [obind]. rewrite R1. reflexivity.
Qed.
Lemma lookup_ok : forall (l : list (bytes * A)) k, ascii_names l -> ascii k ->
  exists r, lookup l k = Some r /\ match r with Some a => In (k, a) l | None => ~ In k (map fst l) end.
Proof.
  intros l k AN AK. destruct (to_name_some k AK) as (n & N1 & N2). destruct (ask_ok l (RSearch n) AN ltac:(cbn; auto)) as (s & s2 & out & (F1 & _) & A1 & S).
  unfold lookup. rewrite N1. cbn [obind]. rewrite A1. cbn [obind]. inversion S as [| |k' a d I Z E1 E2|k' Z E1 E2| | | | |]; subst.
  - apply F1 in I. destruct I as (i & [y v] & I1 & I2 & I3). subst a. eexists. split; [reflexivity|].
    replace (1 + N.of_nat i =? 0) with false by lia. replace (N.to_nat (1 + N.of_nat i) - 1)%nat with i by lia. rewrite I1. cbn [option_map snd].
    apply name_cmp_zero in Z. cbn [fst] in I3.
    assert (D : proj1_sig d = y). { unfold to_name in I3. destruct (bool_dec (asciib y) true); [|discriminate]. injection I3 as I3; subst. reflexivity. }
    assert (y = proj1_sig n) as -> by congruence. apply nth_error_In in I1. exact I1.
  - eexists. split; [reflexivity|]. cbn beta. intros I. apply in_map_iff in I. destruct I as ([y v] & I1 & I2). cbn in I1. subst y.
    destruct (In_nth_error l _ I2) as (i & I3). apply (Z (1 + N.of_nat i) n); [|apply name_cmp_zero; reflexivity]. apply F1. exists i, (proj1_sig n, v). auto.
Qed.
Lemma count_ok : forall (l : list (bytes * A)), ascii_names l -> ask l RCount = Some (ONum (N.of_nat (length l))).
Proof.
  intros l AN. destruct (ask_ok l RCount AN ltac:(cbn; auto)) as (s & s2 & out & (_ & _ & F) & A1 & S). rewrite A1. inversion S; subst. rewrite F. reflexivity.
Qed.
Lemma drop_none : forall l, drop_ids [] l = l.
Proof. intros l; induction l as [|a l IH]; cbn; [reflexivity|]. f_equal. exact IH. Qed.
Lemma visit_all : forall f todo, (length todo <= f)%nat -> visit f (fun _ => []) todo = todo.
Proof. intros f; induction f as [|f IH]; intros [|a todo] L; cbn [visit length] in *; try reflexivity; [lia|]. rewrite drop_none, IH by lia. reflexivity. Qed.
Lemma legal_visit_none : forall f todo present, legal_visit f (fun _ => []) todo present.
Proof.
  intros f; induction f as [|f IH]; intros [|a todo] present; cbn [legal_visit]; auto. split; [constructor|]. split; [intros x []|]. apply IH.
Qed.
Lemma iterate_ok : forall (l : list (bytes * A)), ascii_names l ->
  ask l (RIterate (fun _ => []) (fun _ => false)) = Some (ONodes (map (fun i => 1 + N.of_nat i) (seq 0 (length l))) true).
Proof.
  intros l AN. destruct (ask_ok l (RIterate (fun _ => []) (fun _ => false)) AN) as (s & s2 & out & (_ & F & _) & A1 & S).
  { intros s _. cbn [legal]. split; [reflexivity|]. apply legal_visit_none. }
  rewrite A1. inversion S; subst. unfold vs0. rewrite visit_all by lia. rewrite F. reflexivity.
Qed.
End Tree.
Lemma nth_all : forall {A} (l : list A) k, flat_map (fun a => match nth_error l (N.to_nat a - 1) with Some c => [c] | None => [] end) (map (fun i => 1 + N.of_nat i) (seq k (length l - k))) = skipn k l.
Proof.
  intros A l k. remember (length l - k)%nat as n eqn:E. revert k E. induction n as [|n IH]; intros k E.
  - cbn. rewrite skipn_all2 by lia. reflexivity.
  - cbn [seq map flat_map]. rewrite IH by lia. replace (N.to_nat (1 + N.of_nat k) - 1)%nat with k by lia.
    destruct (nth_error l k) as [c|] eqn:X; [|apply nth_error_None in X; lia]. cbn [app].
    clear - X. revert l X. induction k as [|k IH]; intros [|d l] X; try discriminate; cbn [nth_error skipn] in *; [congruence|]. apply IH. exact X.
Qed.
Lemma cmds_ok : forall (cf : conf) d (cs : list command), lookup cf d = Some (Some cs) -> ascii_names cs -> cmds cf d = Some cs /\ cmd_num cf d = Some (N.of_nat (length cs)).
Proof.
  intros cf d cs L AN. unfold cmds, cmd_num. change command with (bytes * list item)%type in *. rewrite L. cbn [obind]. rewrite iterate_ok, count_ok by exact AN. cbn [obind]. split; [|reflexivity]. f_equal.
  pose proof (nth_all cs 0) as H. rewrite Nat.sub_0_r in H. exact H.
Qed.

(** The names of a configuration that was loaded are words. *)
Definition conf_ascii (cf : conf) : Prop := ascii_names cf /\ Forall (fun d => ascii_names (snd d)) cf.
Lemma word_ascii : forall s, LexSpec.word s -> ascii s.
Proof. intros s [(c & r & -> & L & F) _]. constructor; [unfold letter in L; lia|]. eapply Forall_impl; [|exact F]. intros d D. unfold letter, dec_digit in D. lia. Qed.
Lemma add_ascii : forall cf cur c, conf_ascii cf -> ascii (fst c) -> conf_ascii (add_command cf cur c).
Proof.
  intros cf; induction cf as [|d cf IH]; intros [|cur] c [C1 C2] A; cbn [add_command]; try (split; assumption).
  - split; constructor; try apply (Forall_inv_tail C1); try apply (Forall_inv_tail C2); [apply (Forall_inv C1)|]. cbn [snd]. apply Forall_app. split; [apply (Forall_inv C2)|repeat constructor; exact A].
  - destruct (IH cur c) as [I1 I2]; [split; [apply (Forall_inv_tail C1)|apply (Forall_inv_tail C2)]|exact A|]. split; constructor; auto; [apply (Forall_inv C1)|apply (Forall_inv C2)].
Qed.
Lemma load_loop_ascii : forall f cf cur l cf' l', plain (rest l) -> conf_ascii cf -> load_loop f cf cur l = Got (cf', l') -> plain (rest l') /\ conf_ascii cf'.
Proof.
  intros f; induction f as [|f IH]; intros cf cur l cf' l' P C H; [discriminate|]. cbn [load_loop] in H.
  destruct (conf_token f false l) as [| | |[t l1]] eqn:T; try discriminate. cbn [andthen fst snd] in H. destruct (token_read _ _ _ _ P T) as [P1 D].
  destruct t; try discriminate; try (injection H as H1 H2; subst; auto).
  - destruct D as [(D & _)|(_ & G & _)]; [discriminate|]. apply word_ascii in G.
    destruct (conf_token f false l1) as [| | |[t l2]] eqn:T2; try discriminate. cbn [andthen fst snd] in H. destruct (token_read _ _ _ _ P1 T2) as [P2 D2]. destruct (is_spec 123 t).
    + destruct (same _ _); [|discriminate]. match type of H with andthen ?r _ = _ => destruct r as [| | |[cf3 l3]] eqn:X; try discriminate end. cbn [andthen fst snd] in H.
      assert (C' : conf_ascii (cf ++ [(s, [])])) by (destruct C as [C1 C2]; split; apply Forall_app; (split; [assumption|]); repeat constructor; exact G).
      destruct (IH _ _ _ _ _ P2 C' X) as [P3 C3]. apply (IH _ _ _ _ _ P3 C3 H).
    + destruct (items f t l2) as [| | |[its l3]] eqn:X; try discriminate. cbn [andthen fst snd] in H.
      destruct D2 as [(E4 & _)|(N2 & G2 & E5)]; [subst t; destruct f; discriminate|]. destruct (items_made _ _ _ _ _ P2 G2 X) as [P3 _].
      apply (IH _ _ _ _ _ P3 (add_ascii cf cur (s, its) C G) H).
  - destruct (c =? 125); [|discriminate]. destruct (same _ _); [discriminate|]. injection H as H1 H2; subst; auto.
Qed.
Lemma load_ascii : forall file cf, match file with Some l => plain l | None => True end -> load file = Got cf -> conf_ascii cf.
Proof.
  assert (M : conf_ascii [(main, [])]) by (split; repeat constructor).
  intros [l|] cf P H; cbn [load] in H; [|injection H as H; subst; exact M].
  destruct (load_loop _ _ _ _) as [| | |[cf' l']] eqn:X; try discriminate. cbn [andthen fst] in H. injection H as H; subst.
  apply (load_loop_ascii _ _ _ (Some l) _ _ P M X).
Qed.

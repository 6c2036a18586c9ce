Require Import List Arith NArith ZArith Lia Bool Sorting.Permutation Sorting.Sorted.
Require Import ZifyBool ZifyNat ZifyN.
Require Import Verif.Base Verif.ChainModel Verif.RbModel Verif.RbSpec Verif.RbFindProofs Verif.RbProofs Verif.StrModel Verif.StrSpec Verif.StrProofs.
Require Import Verif.JsonObjProofs Verif.LarrModel Verif.LarrSpec.
Import ListNotations.
Open Scope N_scope.

(** ** Comparing *)
Lemma sign_Z i j : (sign_of Z.ltb i j < 0 <-> i < j)%Z /\ (0 < sign_of Z.ltb i j <-> j < i)%Z /\ (sign_of Z.ltb i j = 0 <-> i = j)%Z.
Proof. unfold sign_of. destruct (Z.ltb_spec j i), (Z.ltb_spec i j); repeat split; lia. Qed.
Lemma sign_N i j : ((sign_of N.ltb i j < 0)%Z <-> i < j) /\ ((0 < sign_of N.ltb i j)%Z <-> j < i) /\ ((sign_of N.ltb i j = 0)%Z <-> i = j).
Proof. unfold sign_of. destruct (N.ltb_spec j i), (N.ltb_spec i j); repeat split; lia. Qed.
Lemma index_zero a b : index_cmp a b = 0%Z <-> a = b.
Proof. apply sign_N. Qed.
Lemma index_preorder : preorder index_cmp.
Proof.
  unfold index_cmp. split.
  - intros a b. destruct (sign_N a b) as (-> & _ & _), (sign_N b a) as (_ & -> & _). reflexivity.
  - intros a b c H1 H2. destruct (sign_N a b) as (_ & X & _), (sign_N b c) as (_ & Y & _), (sign_N a c) as (_ & Z & _). lia.
Qed.

Section Keys.
Variable K : Type.
Variable what : K -> val.
Hypothesis Hkeys : sound_keys what.

Lemma str_cmp a b s t : what a = Str s -> what b = Str t -> mstrcmp s t = cmpbytes (s_bytes s) (s_bytes t).
Proof.
  intros Ha Hb. destruct Hkeys as [Hf Hd]. destruct (N.eq_dec (s_addr s) (s_addr t)) as [E|E]; [|apply strcmp_cmpbytes; exact E].
  rewrite (Hd a b s t Ha Hb E), cmpbytes_refl. { unfold mstrcmp. rewrite E, N.eqb_refl. reflexivity. }
  apply ascii_bytes. specialize (Hf b). rewrite Hb in Hf. exact Hf.
Qed.
Lemma str_ascii a s : what a = Str s -> ascii (s_bytes s).
Proof. intros E. destruct Hkeys as [Hf _]. specialize (Hf a). rewrite E in Hf. exact Hf. Qed.
Lemma cmp_types a b : type a <> type b -> val_cmp a b = (type a - type b)%Z.
Proof. destruct a as [| | |[|]| | | |], b as [| | |[|]| | | |]; cbn [type val_cmp]; intros H; try reflexivity; destruct (H eq_refl). Qed.
(** What comparing two keys of one type is, without the strings. *)
Inductive alike (a b : K) : Prop :=
| al_nil : what a = Nil -> what b = Nil -> alike a b
| al_int i j : what a = Int i -> what b = Int j -> alike a b
| al_bool i j : what a = Boolean i -> what b = Boolean j -> alike a b
| al_real i j : what a = Real (Some i) -> what b = Real (Some j) -> alike a b
| al_str s t : what a = Str s -> what b = Str t -> alike a b
| al_obj p q : what a = Obj p -> what b = Obj q -> alike a b
| al_fun t p u q : what a = Fun t p -> what b = Fun u q -> alike a b
| al_arr p q : what a = Arr p -> what b = Arr q -> alike a b.
Lemma types_alike a b : type (what a) = type (what b) -> alike a b.
Proof.
  pose proof (proj1 Hkeys a) as Fa. pose proof (proj1 Hkeys b) as Fb.
  destruct (what a) as [|i|x|[r|]|s|p|u p|p] eqn:Ea, (what b) as [|j|y|[r'|]|t|q|u' q|q] eqn:Eb; cbn [type]; intros E; try discriminate E;
    try (destruct Fa; fail); try (destruct Fb; fail); eauto using alike.
Qed.
Lemma fun_sign t p u q : let c := if (u <? t) then 1%Z else if (t <? u) then (-1)%Z else sign_of N.ltb p q in
  ((c < 0)%Z <-> t < u \/ t = u /\ p < q) /\ ((0 < c)%Z <-> u < t \/ u = t /\ q < p) /\ (c = 0%Z <-> t = u /\ p = q).
Proof.
  cbv zeta. pose proof (sign_N p q) as H. destruct (N.ltb_spec u t), (N.ltb_spec t u).
  - lia.
  - split; [|split]; lia.
  - split; [|split]; lia.
  - replace u with t by lia. destruct H as (-> & -> & ->). split; [|split]; lia.
Qed.
Lemma key_antisym a b : (key_cmp what a b < 0 <-> 0 < key_cmp what b a)%Z.
Proof.
  unfold key_cmp. destruct (Z.eq_dec (type (what a)) (type (what b))) as [E|E]; [|rewrite !cmp_types by congruence; lia].
  destruct (types_alike a b E) as [Ha Hb|i j Ha Hb|i j Ha Hb|i j Ha Hb|s t Ha Hb|p q Ha Hb|t p u q Ha Hb|p q Ha Hb]; rewrite Ha, Hb; cbn [val_cmp].
  - lia.
  - destruct (sign_Z i j) as (-> & _ & _), (sign_Z j i) as (_ & -> & _). reflexivity.
  - destruct i, j; cbn; lia.
  - destruct (sign_Z i j) as (-> & _ & _), (sign_Z j i) as (_ & -> & _). reflexivity.
  - rewrite (str_cmp a b s t Ha Hb), (str_cmp b a t s Hb Ha). rewrite (cmpbytes_antisym (s_bytes s)) by (eapply str_ascii; eassumption). lia.
  - destruct (sign_N p q) as (-> & _ & _), (sign_N q p) as (_ & -> & _). reflexivity.
  - destruct (fun_sign t p u q) as (-> & _ & _), (fun_sign u q t p) as (_ & -> & _). reflexivity.
  - destruct (sign_N p q) as (-> & _ & _), (sign_N q p) as (_ & -> & _). reflexivity.
Qed.
(** Equal keys. *)
Lemma key_zero a b : key_cmp what a b = 0%Z <-> same_key (what a) (what b) = true \/ what a = Nil /\ what b = Nil.
Proof.
  unfold key_cmp. destruct (Z.eq_dec (type (what a)) (type (what b))) as [E|E].
  2:{ rewrite cmp_types by exact E. split; [lia|]. intros [C|[C D]]; [|rewrite C, D in E; destruct (E eq_refl)].
      exfalso. destruct (what a) as [| | |[|]| | | |], (what b) as [| | |[|]| | | |]; cbn [same_key type] in *; try discriminate C; destruct (E eq_refl). }
  destruct (types_alike a b E) as [Ha Hb|i j Ha Hb|i j Ha Hb|i j Ha Hb|s t Ha Hb|p q Ha Hb|t p u q Ha Hb|p q Ha Hb]; rewrite Ha, Hb; cbn [val_cmp same_key].
  - split; [intros _; right; split; reflexivity|reflexivity].
  - destruct (sign_Z i j) as (_ & _ & ->). rewrite Z.eqb_eq. split; [auto|]. intros [C|[C _]]; [exact C|discriminate].
  - destruct i, j; cbn; split; try lia; auto; try (intros _; left; reflexivity); intros [C|[C _]]; discriminate.
  - destruct (sign_Z i j) as (_ & _ & ->). rewrite Z.eqb_eq. split; [auto|]. intros [C|[C _]]; [exact C|discriminate].
  - rewrite (str_cmp a b s t Ha Hb). destruct (list_eq_dec N.eq_dec (s_bytes s) (s_bytes t)) as [Es|Es].
    + split; [auto|]. intros _. rewrite Es. apply cmpbytes_refl. apply ascii_bytes. eapply str_ascii; eassumption.
    + split; [|intros [C|[C _]]; discriminate]. intros C. destruct (Es (cmpbytes_eq _ _ (ascii_bytes _ (str_ascii _ _ Ha)) (ascii_bytes _ (str_ascii _ _ Hb)) C)).
  - destruct (sign_N p q) as (_ & _ & ->). rewrite N.eqb_eq. split; [auto|]. intros [C|[C _]]; [exact C|discriminate].
  - destruct (fun_sign t p u q) as (_ & _ & ->). rewrite andb_true_iff, !N.eqb_eq. split; [auto|]. intros [C|[C _]]; [exact C|discriminate].
  - destruct (sign_N p q) as (_ & _ & ->). rewrite N.eqb_eq. split; [auto|]. intros [C|[C _]]; [exact C|discriminate].
Qed.
Lemma cmp_le_type a b : (val_cmp a b <= 0 -> type a <= type b)%Z.
Proof. intros H. destruct (Z.eq_dec (type a) (type b)) as [E|E]; [lia|]. rewrite cmp_types in H by exact E. lia. Qed.
Lemma key_trans a b c : (key_cmp what a b <= 0 -> key_cmp what b c <= 0 -> key_cmp what a c <= 0)%Z.
Proof.
  unfold key_cmp. intros H1 H2. pose proof (cmp_le_type _ _ H1) as T1. pose proof (cmp_le_type _ _ H2) as T2.
  destruct (Z.eq_dec (type (what a)) (type (what c))) as [E|E]; [|rewrite cmp_types by exact E; lia].
  assert (Eb : type (what a) = type (what b)) by lia.
  pose proof (proj1 Hkeys c) as Fc.
  destruct (types_alike a b Eb) as [Ha Hb|i j Ha Hb|i j Ha Hb|i j Ha Hb|s t Ha Hb|p q Ha Hb|t p u q Ha Hb|p q Ha Hb]; rewrite Ha, Hb in *;
    destruct (what c) as [|k|y|[r'|]|v|o|u' o|o] eqn:Ec; cbn [type val_cmp] in *; try discriminate E; try (destruct Fc; fail).
  - lia.
  - pose proof (sign_Z i j). pose proof (sign_Z j k). pose proof (sign_Z i k). lia.
  - destruct i, j, y; cbn in *; lia.
  - pose proof (sign_Z i j). pose proof (sign_Z j r'). pose proof (sign_Z i r'). lia.
  - rewrite (str_cmp a b s t Ha Hb) in H1. rewrite (str_cmp b c t v Hb Ec) in H2. rewrite (str_cmp a c s v Ha Ec).
    pose proof (str_ascii _ _ Ha) as A1. pose proof (str_ascii _ _ Hb) as A2. pose proof (str_ascii _ _ Ec) as A3.
    destruct (Z.eq_dec (cmpbytes (s_bytes s) (s_bytes t)) 0) as [Z1|Z1]. { apply cmpbytes_eq in Z1; [|apply ascii_bytes; assumption..]. rewrite Z1. exact H2. }
    destruct (Z.eq_dec (cmpbytes (s_bytes t) (s_bytes v)) 0) as [Z2|Z2]. { apply cmpbytes_eq in Z2; [|apply ascii_bytes; assumption..]. rewrite <- Z2. exact H1. }
    pose proof (cmpbytes_trans _ _ _ A1 A2 A3). lia.
  - pose proof (sign_N p q). pose proof (sign_N q o). pose proof (sign_N p o). lia.
  - pose proof (fun_sign t p u q) as F1. pose proof (fun_sign u q u' o) as F2. pose proof (fun_sign t p u' o) as F3. cbv zeta in *.
    revert H1 H2 F1 F2 F3. generalize (if u <? t then 1%Z else if t <? u then (-1)%Z else sign_of N.ltb p q)
      (if u' <? u then 1%Z else if u <? u' then (-1)%Z else sign_of N.ltb q o) (if u' <? t then 1%Z else if t <? u' then (-1)%Z else sign_of N.ltb p o). clear. lia.
  - pose proof (sign_N p q). pose proof (sign_N q o). pose proof (sign_N p o). lia.
Qed.
Lemma key_preorder : preorder (key_cmp what).
Proof. split; [exact key_antisym|exact key_trans]. Qed.
End Keys.

(** ** Trees *)
Section Tree.
Variable K : Type.
Variable cmp : K -> K -> Z.
Hypothesis Hcmp : preorder cmp.
(** The tree has the nodes [l], in the order in which they came. *)
Definition tree_of (t : rbtree K) (l : list N) : Prop := exists s tr h, inv K cmp t s tr h /\ idle _ t /\ RbSpec.order s = l.
Lemma tree_new t0 : tree_of (rb_new t0) [].
Proof. exists (RbSpec.mkS [] []), E, O. destruct (inv_new K cmp t0) as [I Id]. auto. Qed.
Lemma order_sorted t s tr h a d : inv K cmp t s tr h -> In (a, d) (sorted s) <-> In a (RbSpec.order s) /\ d = key t a.
Proof.
  intros I. rewrite (i_sorted _ _ _ _ _ _ I), keyof_in. split; intros [H1 H2]; (split; [|exact H2]).
  - eapply Permutation_in; [apply Permutation_sym, (i_perm _ _ _ _ _ _ I)|exact H1].
  - eapply Permutation_in; [apply (i_perm _ _ _ _ _ _ I)|exact H1].
Qed.
Lemma tree_search t l k : tree_of t l -> ~ In 0 l ->
  (exists a, rb_search cmp t k = Some a /\ (a =? 0) = false /\ In a l /\ cmp k (key t a) = 0%Z) \/
  (rb_search cmp t k = Some 0 /\ forall a, In a l -> cmp k (key t a) <> 0%Z).
Proof.
  intros (s & tr & h & I & Id & <-) H0. destruct (r_step_ok K cmp Hcmp _ _ _ _ (RSearch k) I Id Logic.I) as (t' & out & tr' & h' & E1 & S1 & _ & _).
  cbn [r_step] in E1. destruct (rb_search cmp t k) as [a|]; [|discriminate]. cbn [obind] in E1. injection E1 as <- <-.
  inversion S1 as [| |k' a' d Hin Hc|k' Hn| | | | |]; subst.
  - left. exists a. apply (order_sorted _ _ _ _ _ _ I) in Hin as [Hin ->]. split; [reflexivity|]. split; [apply N.eqb_neq; intros ->; contradiction|]. auto.
  - right. split; [reflexivity|]. intros a Ha C. apply (Hn a (key t a)); [apply (order_sorted _ _ _ _ _ _ I); auto|exact C].
Qed.
Lemma insert_key t n d t' : rb_insert cmp t n d = Some t' -> key t' = set (key t) n d.
Proof.
  unfold rb_insert. cbv zeta. destruct (descend _ _ _ _ _ _ _); [|discriminate]. cbn [obind]. destruct (insert_fixup _ _ _); [|discriminate]. cbn [obind].
  destruct (chain_add _ _ _ _) as [[[c hd] tl]|]; [|discriminate]. cbn [obind]. intros H. injection H as <-. reflexivity.
Qed.
Lemma tree_insert t l n d : tree_of t l -> n <> 0 -> ~ In n l ->
  exists t', rb_insert cmp t n d = Some t' /\ tree_of t' (l ++ [n]) /\ key t' n = d /\ forall a, a <> n -> key t' a = key t a.
Proof.
  intros (s & tr & h & I & Id & <-) H0 Hn.
  destruct (rb_insert_ok K cmp Hcmp t s tr h n d I) as (t' & tr' & h' & E1 & I1 & It & Dt); [exact H0| |].
  { rewrite (inv_ids _ _ _ _ _ _ I). intros C. apply Hn. eapply Permutation_in; [apply Permutation_sym, (i_perm _ _ _ _ _ _ I)|exact C]. }
  exists t'. split; [exact E1|]. split. { eexists _, tr', h'. split; [exact I1|]. split; [destruct Id; split; congruence|reflexivity]. }
  rewrite (insert_key _ _ _ _ E1). unfold set. split; [rewrite N.eqb_refl; reflexivity|]. intros a Ha. apply N.eqb_neq in Ha. rewrite Ha. reflexivity.
Qed.
Lemma tree_iterate t l : tree_of t l -> exists t', rb_iterate (fun _ => []) (fun _ => false) t = Some (t', l, true) /\ tree_of t' l /\ forall a, In a l -> key t' a = key t a.
Proof.
  intros (s & tr & h & I & Id & <-).
  assert (L : legal s (RIterate (K := K) (fun _ => []) (fun _ => false))) by (split; [reflexivity|apply legal_visit_none]).
  destruct (r_step_ok K cmp Hcmp _ _ _ _ (RIterate (fun _ => []) (fun _ => false)) I Id L) as (t' & out & tr' & h' & E1 & S1 & I1 & Id1). cbn [r_step] in E1.
  destruct (rb_iterate (fun _ => []) (fun _ => false) t) as [[[t1 l] b]|]; [|discriminate]. cbn [obind] in *. injection E1 as -> <-.
  assert (Eb : b = true /\ l = RbSpec.order s).
  { clear - S1. remember (RIterate (K := K) (fun _ => []) (fun _ => false)) as o eqn:Eo. remember (ONodes l b) as out eqn:Eu. destruct S1; try discriminate Eo.
    injection Eo as -> ->. injection Eu as <- <-. split; [|apply visit_all; lia]. reflexivity. }
  destruct Eb as [-> ->]. cbn [spec_next] in I1. rewrite visit_all in I1 by lia. cbv zeta in I1.
  assert (Eg : flat_map (fun _ : N => []) (RbSpec.order s) = ([] : list N)) by (clear; induction (RbSpec.order s); [reflexivity|assumption]). rewrite Eg in I1.
  rewrite drop_ids_nil in I1. rewrite (filter_id (fun p => negb (existsb (N.eqb (fst p)) []))) in I1 by reflexivity.
  exists t'. split; [reflexivity|]. split. { eexists _, tr', h'. split; [exact I1|]. split; [exact Id1|reflexivity]. }
  intros a Ha. assert (Hin : In (a, key t a) (sorted s)) by (apply (order_sorted _ _ _ _ _ _ I); auto).
  pose proof (proj1 (order_sorted _ _ _ _ a (key t a) I1) Hin) as [_ E1]. congruence.
Qed.
End Tree.
Arguments tree_of {K}.

(** ** Places *)
Definition ids (n : nat) : list N := map N.of_nat (seq 1 n).
Lemma ids_in n e : In e (ids n) <-> 1 <= e <= N.of_nat n.
Proof.
  unfold ids. rewrite in_map_iff. split.
  - intros (x & <- & H). apply in_seq in H. lia.
  - intros H. exists (N.to_nat e). split; [lia|]. apply in_seq. lia.
Qed.
Lemma ids_S n : ids (S n) = ids n ++ [N.of_nat n + 1].
Proof. unfold ids. rewrite seq_S, map_app. cbn [map]. do 2 f_equal. lia. Qed.
Lemma ids_length n : length (ids n) = n.
Proof. unfold ids. rewrite map_length, seq_length. reflexivity. Qed.
Lemma same_key_sym a b : same_key a b = same_key b a.
Proof.
  destruct a as [| | |[|]| | | |], b as [| | |[|]| | | |]; cbn [same_key]; try reflexivity; try apply Z.eqb_sym; try apply N.eqb_sym.
  - destruct b0, b; reflexivity.
  - destruct (list_eq_dec N.eq_dec (s_bytes s) (s_bytes s0)), (list_eq_dec N.eq_dec (s_bytes s0) (s_bytes s)); congruence.
  - f_equal; apply N.eqb_sym.
Qed.

Section Array.
Variable K : Type.
Variable what : K -> val.
Hypothesis Hkeys : sound_keys what.
Notation cmp := (key_cmp what).

Lemma find_some (g : N -> place K) is m : forall s e, In e (map N.of_nat (seq s m)) -> is (g e) = true ->
  (forall e', In e' (map N.of_nat (seq s m)) -> is (g e') = true -> e' = e) -> find is (N.of_nat s) (map g (map N.of_nat (seq s m))) = Some e.
Proof.
  induction m as [|m IH]; intros s e Hin He Hu; [destruct Hin|]. cbn [seq map find] in *. destruct (is (g (N.of_nat s))) eqn:E.
  - f_equal. apply Hu; [left; reflexivity|exact E].
  - destruct Hin as [<-|Hin]; [congruence|]. replace (N.of_nat s + 1) with (N.of_nat (S s)) by lia. apply IH; auto. intros e' H'. apply Hu. right. exact H'.
Qed.
Lemma find_none (is : place K -> bool) l : forall n, (forall p, In p l -> is p = false) -> find is n l = None.
Proof. induction l as [|p l IH]; intros n H; [reflexivity|]. cbn [find]. rewrite (H p (or_introl eq_refl)). apply IH. intros q Hq. apply H. right. exact Hq. Qed.
Lemma next_app (l : list (place K)) p : next (l ++ [p]) = N.max (next l) (number p + 1).
Proof. induction l as [|q l IH]; cbn [app next fold_right]; [unfold next; cbn; lia|]. unfold next in *. rewrite IH. lia. Qed.
Lemma next_above (l : list (place K)) p : In p l -> number p < next l.
Proof. induction l as [|q l IH]; [intros []|]. unfold next in *. cbn [fold_right]. intros [->|H]; [lia|]. specialize (IH H). lia. Qed.

(** What the trees hold: the places [l]. *)
Definition pl (a : arr K) (e : N) : place K := (key (by_index a) e, akey a e, aval a e).
Definition keyful (a : arr K) (e : N) : bool := match akey a e with Some _ => true | None => false end.
Record holds (a : arr K) (n : nat) : Prop := {
  h_made : made a = N.of_nat n + 1;
  h_index : tree_of index_cmp (by_index a) (ids n);
  h_keys : tree_of cmp (by_key a) (filter (keyful a) (ids n));
  h_key : forall e k, In e (ids n) -> akey a e = Some k -> key (by_key a) e = k /\ what k <> Nil;
  h_dead : dead a = [];
  h_next : index a = next (map (pl a) (ids n));
  h_numbers : forall e e', In e (ids n) -> In e' (ids n) -> key (by_index a) e = key (by_index a) e' -> e = e';
  h_unique : forall e e' k k', In e (ids n) -> In e' (ids n) -> akey a e = Some k -> akey a e' = Some k' -> same_key (what k) (what k') = true -> e = e' }.
Definition R (a : arr K) (l : list (place K)) : Prop := exists n, holds a n /\ l = map (pl a) (ids n).

Lemma ids_not0 n : ~ In 0 (ids n).
Proof. rewrite ids_in. lia. Qed.
Lemma new_R t0 k0 : R (new t0 k0) [].
Proof.
  exists O. split; [|reflexivity]. split; cbn [new made by_index by_key akey dead index ids seq map filter]; try reflexivity; try apply tree_new; intros e; intros; contradiction.
Qed.
Lemma put_eq {V} (f : N -> V) a v : put f a v a = v.
Proof. unfold put. rewrite N.eqb_refl. reflexivity. Qed.
Lemma put_ne {V} (f : N -> V) a v e : e <> a -> put f a v e = f e.
Proof. intros H. unfold put. apply N.eqb_neq in H. rewrite H. reflexivity. Qed.

Lemma filter_ext_in {A} (f g : A -> bool) l : (forall x, In x l -> f x = g x) -> filter f l = filter g l.
Proof. induction l as [|x l IH]; intros H; [reflexivity|]. cbn [filter]. rewrite (H x (or_introl eq_refl)), IH; [reflexivity|]. intros y Hy. apply H. right. exact Hy. Qed.

(** A new place. *)
Lemma grow a n m ko kt nx : holds a n -> (forall e, In e (ids n) -> key (by_index a) e <> m) ->
  match ko with
  | None => kt = by_key a
  | Some k => what k <> Nil /\ rb_insert cmp (by_key a) (made a) k = Some kt /\ forall e k', In e (ids n) -> akey a e = Some k' -> same_key (what k) (what k') = false
  end -> nx = N.max (index a) (m + 1) ->
  exists t, rb_insert index_cmp (by_index a) (made a) m = Some t /\
    holds (mkA t kt (put (akey a) (made a) ko) (put (aval a) (made a) Nil) nx (made a + 1) (dead a)) (S n) /\
    map (pl (mkA t kt (put (akey a) (made a) ko) (put (aval a) (made a) Nil) nx (made a + 1) (dead a))) (ids (S n)) = map (pl a) (ids n) ++ [(m, ko, Nil)].
Proof.
  intros [Hm Hi Hk Hkey Hd Hx Hn Hu] Hfresh Hko ->.
  assert (Hnew : forall e, In e (ids n) -> e <> made a) by (intros e He; apply ids_in in He; lia).
  destruct (tree_insert N index_cmp index_preorder (by_index a) (ids n) (made a) m Hi) as (t & Et & Ht & Em & Eo); [lia|intros C; exact (Hnew _ C eq_refl)|].
  exists t. split; [exact Et|].
  set (a' := mkA t kt (put (akey a) (made a) ko) (put (aval a) (made a) Nil) (N.max (index a) (m + 1)) (made a + 1) (dead a)).
  assert (Emap : map (pl a') (ids (S n)) = map (pl a) (ids n) ++ [(m, ko, Nil)]).
  { rewrite ids_S, map_app. cbn [map]. f_equal.
    - apply map_ext_in. intros e He. unfold pl, a'. cbn [by_index akey aval]. rewrite Eo, !put_ne by (apply Hnew; exact He). reflexivity.
    - unfold pl, a'. cbn [by_index akey aval]. rewrite <- Hm, Em, !put_eq. reflexivity. }
  split; [|exact Emap].
  assert (Hold : forall e, In e (ids (S n)) -> e = made a \/ In e (ids n) /\ e <> made a).
  { intros e He. rewrite ids_in in *. lia. }
  split.
  - unfold a'. cbn [made]. lia.
  - unfold a'. cbn [by_index]. rewrite ids_S, <- Hm. exact Ht.
  - assert (Ef : filter (keyful a') (ids (S n)) = filter (keyful a) (ids n) ++ (match ko with Some _ => [made a] | None => [] end)).
    { rewrite ids_S, filter_app. f_equal.
      - apply filter_ext_in. intros e He. unfold keyful, a'. cbn [akey]. rewrite put_ne by (apply Hnew; exact He). reflexivity.
      - cbn [filter]. unfold keyful, a'. cbn [akey]. rewrite <- Hm, put_eq. destruct ko; reflexivity. }
    rewrite Ef. unfold a'. cbn [by_key]. destruct ko as [k|]; [|rewrite app_nil_r, Hko; exact Hk].
    destruct Hko as (_ & Ek & _). destruct (tree_insert K cmp (key_preorder K what Hkeys) (by_key a) _ (made a) k Hk) as (t2 & E2 & Ht2 & _).
    + lia.
    + intros C. apply filter_In in C as [C _]. exact (Hnew _ C eq_refl).
    + rewrite E2 in Ek. injection Ek as ->. exact Ht2.
  - intros e k He. unfold a'. cbn [akey by_key]. destruct (Hold e He) as [->|[Ho Hne]].
    + rewrite put_eq. intros ->. destruct Hko as (Hnil & Ek & _). rewrite (insert_key K cmp _ _ _ _ Ek). unfold set. rewrite N.eqb_refl. auto.
    + rewrite put_ne by exact Hne. intros Eq. destruct (Hkey e k Ho Eq) as [H1 H2]. split; [|exact H2]. destruct ko as [k2|]; [|rewrite Hko; exact H1].
      destruct Hko as (_ & Ek & _). rewrite (insert_key K cmp _ _ _ _ Ek). unfold set. apply N.eqb_neq in Hne. rewrite Hne. exact H1.
  - exact Hd.
  - rewrite Emap, next_app, <- Hx. reflexivity.
  - intros e e' He He'. unfold a'. cbn [by_index]. destruct (Hold e He) as [->|[Ho Hne]], (Hold e' He') as [->|[Ho' Hne']]; [reflexivity| | |].
    + rewrite Em, Eo by exact Hne'. intros C. destruct (Hfresh e' Ho'). congruence.
    + rewrite Em, Eo by exact Hne. intros C. destruct (Hfresh e Ho). congruence.
    + rewrite !Eo by assumption. apply Hn; assumption.
  - intros e e' k k' He He'. unfold a'. cbn [akey]. destruct (Hold e He) as [->|[Ho Hne]], (Hold e' He') as [->|[Ho' Hne']]; [reflexivity| | |].
    + rewrite put_eq, put_ne by exact Hne'. intros -> E2 Es. destruct Hko as (_ & _ & Hf). rewrite (Hf e' k' Ho' E2) in Es. discriminate.
    + rewrite put_eq, put_ne by exact Hne. intros E2 -> Es. destruct Hko as (_ & _ & Hf). rewrite same_key_sym, (Hf e k Ho E2) in Es. discriminate.
    + rewrite !put_ne by assumption. apply Hu; assumption.
Qed.

Lemma u64_small i : (0 <= i < 2 ^ 64)%Z -> u64 i = Z.to_N i.
Proof. intros H. unfold u64. rewrite Z.mod_small by exact H. reflexivity. Qed.

(** A call gives what it should, or is refused for want of memory. *)
Definition gives (l : list (place K)) (f : option stage) (r : res (arr K * option N)) (s : list (place K) * option N) : Prop :=
  exists a' e, r = Ok (a', e) /\ (R a' (fst s) /\ e = snd s \/ f <> None /\ R a' l /\ e = None).
Lemma fails_some f s : fails f s = true -> f <> None.
Proof. intros H ->. discriminate. Qed.
Lemma refuse a l f s : R a l -> f <> None -> gives l f (Ok (a, None)) s.
Proof. intros HR Hf. exists a, None. split; [reflexivity|]. right. auto. Qed.

Lemma get_int_ok a l i f : R a l -> (0 <= i < 2 ^ 63)%Z -> (Z.of_N (next l) <= i -> i < 2 ^ 63 - 1)%Z ->
  gives l f (get_int a i f) (take l (numbered (Z.to_N i)) (Z.to_N i, None, Nil)).
Proof.
  intros HR Hi Hov. unfold get_int. destruct (fails f ForNil || fails f ForElem) eqn:Ef.
  { apply refuse; [exact HR|]. apply orb_true_iff in Ef as [Ef|Ef]; eapply fails_some; exact Ef. }
  clear Ef. rewrite u64_small by lia. pose proof HR as (n & Hh & El). pose proof Hh as [Hm Hidx Hk Hkey Hd Hx Hn Hu].
  destruct (tree_search N index_cmp index_preorder _ _ (Z.to_N i) Hidx (ids_not0 n)) as [(e & -> & E0 & Hin & Hc)|[-> Hno]]; cbn [fuelled rbind].
  - rewrite E0. cbn [negb]. exists a, (Some e). split; [reflexivity|]. left. apply index_zero in Hc.
    assert (Ef : find (numbered (Z.to_N i)) 1 l = Some e).
    { rewrite El. change 1 with (N.of_nat 1). apply find_some.
      - exact Hin.
      - unfold numbered, number, pl. cbn [fst]. apply N.eqb_eq. congruence.
      - intros e' H' E'. apply (Hn e' e H' Hin). unfold numbered, number, pl in E'. cbn [fst] in E'. apply N.eqb_eq in E'. congruence. }
    unfold take. rewrite Ef. auto.
  - cbn [N.eqb negb]. destruct (fails f ForNode) eqn:Ef; [apply refuse; [exact HR|eapply fails_some; exact Ef]|].
    assert (Hfind : find (numbered (Z.to_N i)) 1 l = None).
    { rewrite El. apply find_none. intros p Hp. apply in_map_iff in Hp as (e & <- & He). unfold numbered, number, pl. cbn [fst]. apply N.eqb_neq. intros C.
      apply (Hno e He). apply index_zero. congruence. }
    unfold take. rewrite Hfind. rewrite El, <- Hx in Hov.
    assert (Hlen : 1 + N.of_nat (length l) = made a) by (rewrite El, map_length, ids_length; lia).
    assert (Hfresh : forall e, In e (ids n) -> key (by_index a) e <> Z.to_N i) by (intros e He C; apply (Hno e He), index_zero; congruence).
    destruct (grow a n (Z.to_N i) None (by_key a) (N.max (index a) (Z.to_N i + 1)) Hh Hfresh eq_refl eq_refl) as (t & -> & Hh' & Emap). cbn [fuelled rbind].
    assert (Enx : (if index a <=? Z.to_N i then if (i =? 2 ^ 63 - 1)%Z then Fault Overflow
        else Ok (mkA t (by_key a) (put (akey a) (made a) None) (put (aval a) (made a) Nil) (u64 (i + 1)) (made a + 1) (dead a), Some (made a))
      else Ok (mkA t (by_key a) (put (akey a) (made a) None) (put (aval a) (made a) Nil) (index a) (made a + 1) (dead a), Some (made a))) =
      Ok (mkA t (by_key a) (put (akey a) (made a) None) (put (aval a) (made a) Nil) (N.max (index a) (Z.to_N i + 1)) (made a + 1) (dead a), Some (made a))).
    { clear Hh' Emap. destruct (N.leb_spec (index a) (Z.to_N i)) as [Hle|Hle].
      - assert (Hlt : (i < 2 ^ 63 - 1)%Z) by (apply Hov; lia). destruct (Z.eqb_spec i (2 ^ 63 - 1)) as [C|_]; [lia|].
        rewrite u64_small by lia. replace (N.max (index a) (Z.to_N i + 1)) with (Z.to_N (i + 1)) by lia. reflexivity.
      - replace (N.max (index a) (Z.to_N i + 1)) with (index a) by lia. reflexivity. }
    rewrite Enx. eexists _, _. split; [reflexivity|]. left. cbn [fst snd]. split; [|rewrite Hlen; reflexivity]. exists (S n). split; [exact Hh'|]. rewrite Emap, <- El. reflexivity.
Qed.
Lemma get_nil_ok a l f : R a l -> next l < 2 ^ 64 - 1 -> gives l f (get_nil a f) (take l (fun _ => false) (next l, None, Nil)).
Proof.
  intros HR Hlt. unfold get_nil. destruct (fails f ForNil || fails f ForElem || fails f ForNode) eqn:Ef.
  { apply refuse; [exact HR|]. apply orb_true_iff in Ef as [Ef|Ef]; [apply orb_true_iff in Ef as [Ef|Ef]|]; eapply fails_some; exact Ef. }
  pose proof HR as (n & Hh & El). pose proof Hh as [Hm Hidx Hk Hkey Hd Hx Hn Hu]. unfold take. rewrite find_none by reflexivity.
  assert (Hlen : 1 + N.of_nat (length l) = made a) by (rewrite El, map_length, ids_length; lia).
  assert (Hfresh : forall e, In e (ids n) -> key (by_index a) e <> index a).
  { intros e He. pose proof (next_above (map (pl a) (ids n)) (pl a e) (in_map _ _ _ He)) as H. rewrite <- Hx in H. unfold number, pl in H. cbn [fst] in H. lia. }
  rewrite <- El in Hx.
  destruct (grow a n (index a) None (by_key a) ((index a + 1) mod 2 ^ 64) Hh Hfresh eq_refl) as (t & -> & Hh' & Emap).
  { rewrite Hx. rewrite N.mod_small by lia. lia. }
  cbn [fuelled rbind]. eexists _, _. split; [reflexivity|]. left. cbn [fst snd]. split; [|rewrite Hlen; reflexivity]. exists (S n). split; [exact Hh'|]. rewrite Emap, <- El, <- Hx. reflexivity.
Qed.
Lemma look_live (a : arr K) k : dead a = [] -> look what a k = fuelled (rb_search cmp (by_key a) k).
Proof.
  intros E. unfold look. rewrite E. assert (X : forall l : list N, existsb (fun x => existsb (N.eqb x) []) l = false) by (induction l; auto). rewrite X. reflexivity.
Qed.
(** What is found by key. *)
Lemma key_search a n k : holds a n -> what k <> Nil ->
  (exists e, rb_search cmp (by_key a) k = Some e /\ (e =? 0) = false /\ In e (ids n) /\ has_key what k (pl a e) = true) \/
  (rb_search cmp (by_key a) k = Some 0 /\ forall e, In e (ids n) -> has_key what k (pl a e) = false).
Proof.
  intros [Hm Hidx Hk Hkey Hd Hx Hn Hu] Hnil.
  destruct (tree_search K cmp (key_preorder K what Hkeys) _ _ k Hk) as [(e & E1 & E0 & Hin & Hc)|[E1 Hno]].
  { intros C. apply filter_In in C as [C _]. exact (ids_not0 n C). }
  - left. exists e. apply filter_In in Hin as [Hin Hf]. split; [exact E1|]. split; [exact E0|]. split; [exact Hin|]. unfold has_key, key_of, pl. cbn [fst snd].
    unfold keyful in Hf. destruct (akey a e) as [k'|] eqn:Ek; [|discriminate]. destruct (Hkey e k' Hin Ek) as [Ey _]. rewrite Ey in Hc.
    apply (key_zero K what Hkeys) in Hc as [Hc|[C _]]; [exact Hc|contradiction].
  - right. split; [exact E1|]. intros e He. unfold has_key, key_of, pl. cbn [fst snd]. destruct (akey a e) as [k'|] eqn:Ek; [|reflexivity].
    destruct (same_key (what k) (what k')) eqn:Es; [|reflexivity]. exfalso. destruct (Hkey e k' He Ek) as [Ey _]. apply (Hno e).
    + apply filter_In. split; [exact He|]. unfold keyful. rewrite Ek. reflexivity.
    + rewrite Ey. apply (key_zero K what Hkeys). left. exact Es.
Qed.
Lemma get_other_ok a l k f : R a l -> next l < 2 ^ 64 - 1 -> what k <> Nil -> f <> Some ForLink ->
  gives l f (get_other what a k f) (take l (has_key what k) (next l, Some k, Nil)).
Proof.
  intros HR Hlt Hnil Hf. unfold get_other. destruct (fails f ForNil || fails f ForKey || fails f ForElem) eqn:Ef.
  { apply refuse; [exact HR|]. apply orb_true_iff in Ef as [Ef|Ef]; [apply orb_true_iff in Ef as [Ef|Ef]|]; eapply fails_some; exact Ef. }
  clear Ef. pose proof HR as (n & Hh & El). pose proof Hh as [Hm Hidx Hk Hkey Hd Hx Hn Hu]. rewrite look_live by exact Hd.
  destruct (key_search a n k Hh Hnil) as [(e & -> & E0 & Hin & Hc)|[-> Hno]]; cbn [fuelled rbind].
  - rewrite E0. cbn [negb]. exists a, (Some e). split; [reflexivity|]. left.
    assert (Ef : find (has_key what k) 1 l = Some e).
    { rewrite El. change 1 with (N.of_nat 1). apply find_some; [exact Hin|exact Hc|]. intros e' H' E'. revert Hc E'. unfold has_key, key_of, pl. cbn [fst snd].
      destruct (akey a e) as [k1|] eqn:E1; [|discriminate]. destruct (akey a e') as [k2|] eqn:E2; [|discriminate]. intros S1 S2. apply (Hu e' e k2 k1 H' Hin E2 E1).
      assert (Z1 : cmp k k1 = 0%Z) by (apply (key_zero K what Hkeys); left; exact S1). assert (Z2 : cmp k k2 = 0%Z) by (apply (key_zero K what Hkeys); left; exact S2).
      assert (Z3 : cmp k2 k1 = 0%Z).
      { pose proof (key_antisym K what Hkeys k k2). pose proof (key_antisym K what Hkeys k2 k). pose proof (key_antisym K what Hkeys k k1). pose proof (key_antisym K what Hkeys k1 k).
        pose proof (key_antisym K what Hkeys k1 k2). pose proof (key_antisym K what Hkeys k2 k1).
        pose proof (key_trans K what Hkeys k2 k k1). pose proof (key_trans K what Hkeys k1 k k2). lia. }
      apply (key_zero K what Hkeys) in Z3 as [Z3|[C _]]; [exact Z3|]. destruct (Hkey e' k2 H' E2) as [_ X]. contradiction. }
    unfold take. rewrite Ef. auto.
  - cbn [N.eqb negb]. destruct (fails f ForNode) eqn:Ef; [apply refuse; [exact HR|eapply fails_some; exact Ef]|].
    assert (Hfind : find (has_key what k) 1 l = None).
    { rewrite El. apply find_none. intros p Hp. apply in_map_iff in Hp as (e & <- & He). auto. }
    unfold take. rewrite Hfind.
    assert (Hlen : 1 + N.of_nat (length l) = made a) by (rewrite El, map_length, ids_length; lia).
    destruct (tree_insert K cmp (key_preorder K what Hkeys) (by_key a) _ (made a) k Hk) as (kt & Ekt & _).
    { lia. } { intros C. apply filter_In in C as [C _]. apply ids_in in C. lia. }
    rewrite Ekt. cbn [fuelled rbind]. destruct (fails f ForLink) eqn:Efl. { exfalso. apply Hf. destruct f as [[]|]; try discriminate Efl. reflexivity. }
    assert (Hfresh : forall e, In e (ids n) -> key (by_index a) e <> index a).
    { intros e He. pose proof (next_above (map (pl a) (ids n)) (pl a e) (in_map _ _ _ He)) as H. rewrite <- Hx in H. unfold number, pl in H. cbn [fst] in H. lia. }
    rewrite <- El in Hx.
    destruct (grow a n (index a) (Some k) kt ((index a + 1) mod 2 ^ 64) Hh Hfresh) as (t & -> & Hh' & Emap).
    { split; [exact Hnil|]. split; [exact Ekt|]. intros e k' He Ek'. specialize (Hno e He). unfold has_key, key_of, pl in Hno. cbn [fst snd] in Hno. rewrite Ek' in Hno. exact Hno. }
    { rewrite Hx. rewrite N.mod_small by lia. lia. }
    cbn [fuelled rbind]. eexists _, _. split; [reflexivity|]. left. cbn [fst snd]. split; [|rewrite Hlen; reflexivity]. exists (S n). split; [exact Hh'|]. rewrite Emap, <- El, <- Hx. reflexivity.
Qed.

Lemma take_next (l : list (place K)) is p : next (fst (take l is p)) <= N.max (next l) (number p + 1).
Proof. unfold take. destruct (find is 1 l); cbn [fst]; [lia|]. rewrite next_app. lia. Qed.
Lemma get_ok a l k f : R a l -> next l < 2 ^ 63 -> allowed what (Get k f) -> gives l f (get what a k f) (fetch what l k) /\ next (fst (fetch what l k)) <= N.max (next l + 1) (2 ^ 62).
Proof.
  intros HR Hn [Hf Hk]. unfold get, fetch. destruct k as [k|]; [|split; [apply get_nil_ok; [exact HR|lia]|etransitivity; [apply take_next|cbn [number fst]; lia]]].
  destruct (what k) as [|i| | | | | |] eqn:E; try (split; [apply get_other_ok; [exact HR|lia|congruence|exact Hf]|etransitivity; [apply take_next|unfold number; cbn [fst]; lia]]).
  - split; [apply get_nil_ok; [exact HR|lia]|etransitivity; [apply take_next|unfold number; cbn [fst]; lia]].
  - unfold small in Hk. split; [apply get_int_ok; [exact HR|lia|lia]|etransitivity; [apply take_next|unfold number; cbn [fst]; lia]].
Qed.
Lemma back_sum i n : (- 2 ^ 63 <= i < 0)%Z -> n < 2 ^ 63 -> s64 ((u64 i + n) mod 2 ^ 64) = (i + Z.of_N n)%Z.
Proof.
  intros Hi Hn. unfold u64. rewrite <- (Z.mod_add i 1 (2 ^ 64)) by lia. rewrite Z.mod_small by lia. unfold s64.
  destruct (Z.ltb_spec (i + Z.of_N n) 0) as [H|H].
  - rewrite N.mod_small by lia. destruct (N.ltb_spec (Z.to_N (i + 1 * 2 ^ 64) + n) (2 ^ 63)); lia.
  - assert (E : (Z.to_N (i + 1 * 2 ^ 64) + n) mod 2 ^ 64 = Z.to_N (i + Z.of_N n)).
    { symmetry. apply (N.mod_unique _ _ 1); lia. }
    rewrite E. destruct (N.ltb_spec (Z.to_N (i + Z.of_N n)) (2 ^ 63)); lia.
Qed.
(** The operator; the operand afterwards. *)
Definition operand (k : val) (l : list (place K)) (e : option N) : val :=
  match k with
  | Int i => if (i <? 0)%Z then match e with Some _ => if (i =? -1)%Z then Int (i + Z.of_N (next l)) else k | None => Int (i + Z.of_N (next l)) end else k
  | _ => k
  end.
Lemma index_ok a l k f : R a l -> next l < 2 ^ 63 -> allowed what (Index k f) ->
  exists a' e, index_op what a k f = Ok (a', e, operand (what k) l e) /\
    (R a' (fst (fetch_back what l k)) /\ e = snd (fetch_back what l k) \/ f <> None /\ R a' l /\ e = None) /\
    next (fst (fetch_back what l k)) <= N.max (next l + 1) (2 ^ 62).
Proof.
  intros HR Hn [Hf Hk]. assert (Eix : index a = next l) by (destruct HR as (n & [] & ->); assumption). unfold index_op, fetch_back.
  assert (Gen : allowed what (Get (Some k) f) -> exists a' e, rbind (get what a (Some k) f) (fun r => Ok (fst r, snd r, what k)) = Ok (a', e, what k) /\
    (R a' (fst (fetch what l (Some k))) /\ e = snd (fetch what l (Some k)) \/ f <> None /\ R a' l /\ e = None) /\ next (fst (fetch what l (Some k))) <= N.max (next l + 1) (2 ^ 62)).
  { intros Ha. destruct (get_ok a l (Some k) f HR Hn Ha) as [(a' & e & -> & H) Hb]. exists a', e. split; [reflexivity|]. auto. }
  destruct (what k) as [|i|b|r|s|p|t p|p] eqn:E; try (apply Gen; cbn [allowed]; rewrite E; auto; fail).
  destruct (Z.ltb_spec i 0) as [Hi|Hi].
  - rewrite Eix, back_sum by lia. destruct (Z.ltb_spec (i + Z.of_N (next l)) 0) as [Hj|Hj].
    + exists a, None. unfold operand. destruct (Z.ltb_spec i 0); [|lia]. split; [reflexivity|]. cbn [fst snd]. split; [left; auto|lia].
    + destruct (get_int_ok a l (i + Z.of_N (next l)) f HR) as (a' & e & -> & H); [lia|lia|]. cbn [rbind fst snd]. exists a', e.
      unfold operand. destruct (Z.ltb_spec i 0); [|lia]. split; [reflexivity|]. split; [exact H|]. etransitivity; [apply take_next|unfold number; cbn [fst]; lia].
  - unfold get, fetch in *. rewrite E in *. destruct Gen as (a' & e & H1 & H2).
    { cbn [allowed]. rewrite E. unfold small. split; [exact Hf|lia]. }
    exists a', e. unfold operand. destruct (Z.ltb_spec i 0); [lia|]. auto.
Qed.
Lemma existsb_places a n (is : place K -> bool) : (forall e, In e (ids n) -> is (pl a e) = false) -> existsb is (map (pl a) (ids n)) = false.
Proof. intros H. induction (ids n) as [|e l IH]; [reflexivity|]. cbn [map existsb]. rewrite (H e (or_introl eq_refl)), IH; [reflexivity|]. intros x Hx. apply H. right. exact Hx. Qed.
Lemma existsb_place a n (is : place K -> bool) e : In e (ids n) -> is (pl a e) = true -> existsb is (map (pl a) (ids n)) = true.
Proof. intros H1 H2. apply existsb_exists. exists (pl a e). split; [apply in_map; exact H1|exact H2]. Qed.
Lemma exist_ok a l k f : R a l -> next l <= 2 ^ 63 -> allowed what (Exist k f) -> exists b, exist what a k f = Ok b /\ (b = has what l k \/ f <> None /\ b = false).
Proof.
  intros (n & Hh & El) Hn Hk. pose proof Hh as [Hm Hidx Hks Hkey Hd Hx Hnum Hu]. unfold exist. destruct (fails f ForNil || fails f ForElem) eqn:Ef.
  { exists false. split; [reflexivity|]. right. split; [|reflexivity]. apply orb_true_iff in Ef as [Ef|Ef]; eapply fails_some; exact Ef. }
  assert (Other : what k <> Nil -> exists b, (if fails f ForKey then Ok false else rbind (look what a k) (fun e => Ok (negb (e =? 0)))) = Ok b /\
    (b = existsb (has_key what k) l \/ f <> None /\ b = false)).
  { intros Hnil. destruct (fails f ForKey) eqn:Efk; [exists false; split; [reflexivity|right; split; [eapply fails_some; exact Efk|reflexivity]]|].
    rewrite look_live by exact Hd. destruct (key_search a n k Hh Hnil) as [(e & -> & E0 & Hin & Hc)|[-> Hno]]; cbn [fuelled rbind].
    - rewrite E0. eexists. split; [reflexivity|]. left. rewrite El. symmetry. exact (existsb_place a n _ e Hin Hc).
    - eexists. split; [reflexivity|]. left. rewrite El. symmetry. exact (existsb_places a n _ Hno). }
  cbn [allowed] in Hk. unfold has. destruct (what k) as [|i|b|r|s|p|t p|p] eqn:E; try (apply Other; congruence).
  - destruct (fails f ForKey) eqn:Efk; [exists false; auto|]. rewrite look_live by exact Hd.
    destruct (tree_search K cmp (key_preorder K what Hkeys) _ _ k Hks) as [(e & E1 & E0 & Hin & Hc)|[-> Hno]].
    { intros C. apply filter_In in C as [C _]. exact (ids_not0 n C). }
    + exfalso. apply filter_In in Hin as [Hin Hf]. unfold keyful in Hf. destruct (akey a e) as [k'|] eqn:Ek; [|discriminate].
      destruct (Hkey e k' Hin Ek) as [Ey Hnn]. rewrite Ey in Hc. apply (key_zero K what Hkeys) in Hc as [Hc|[_ C]]; [|contradiction]. rewrite E in Hc. discriminate.
    + cbn [fuelled rbind]. exists false. auto.
  - assert (Hb : forall e, In e (ids n) -> key (by_index a) e < next l).
    { intros e He. rewrite El. exact (next_above (map (pl a) (ids n)) (pl a e) (in_map _ _ _ He)). }
    destruct (Z.leb_spec 0 i) as [Hi|Hi].
    + rewrite u64_small by lia. cbn [andb].
      destruct (tree_search N index_cmp index_preorder _ _ (Z.to_N i) Hidx (ids_not0 n)) as [(e & -> & E0 & Hin & Hc)|[-> Hno]]; cbn [fuelled rbind].
      * rewrite E0. eexists. split; [reflexivity|]. left. rewrite El. symmetry. apply (existsb_place a n _ e Hin). apply index_zero in Hc. unfold numbered, number, pl. cbn [fst]. apply N.eqb_eq. congruence.
      * eexists. split; [reflexivity|]. left. rewrite El. symmetry. apply existsb_places. intros e He. unfold numbered, number, pl. cbn [fst]. apply N.eqb_neq. intros C.
        apply (Hno e He), index_zero. congruence.
    + cbn [andb]. assert (Eu : u64 i = Z.to_N (i + 2 ^ 64)). { unfold u64. rewrite <- (Z.mod_add i 1 (2 ^ 64)) by lia. rewrite Z.mod_small by lia. f_equal. }
      destruct (tree_search N index_cmp index_preorder _ _ (u64 i) Hidx (ids_not0 n)) as [(e & -> & E0 & Hin & Hc)|[-> Hno]]; cbn [fuelled rbind].
      * exfalso. apply index_zero in Hc. specialize (Hb e Hin). lia.
      * exists false. auto.
Qed.
Lemma next_numbers (l l' : list (place K)) : map number l = map number l' -> next l = next l'.
Proof.
  revert l'. induction l as [|p l IH]; intros [|q l'] H; try discriminate; [reflexivity|]. cbn [map] in H. injection H as H1 H2. unfold next in *. cbn [fold_right].
  rewrite (IH l' H2), H1. reflexivity.
Qed.
Lemma assign_zero (l : list (place K)) v : assign l 0 v = l.
Proof. induction l as [|[[n k] w] l IH]; [reflexivity|]. cbn [assign N.eqb]. f_equal. exact IH. Qed.
Lemma assign_map (g : N -> place K) e v m : forall s, N.of_nat s <= e ->
  assign (map g (map N.of_nat (seq s m))) (e + 1 - N.of_nat s) v = map (fun x => if x =? e then (fst (g x), v) else g x) (map N.of_nat (seq s m)).
Proof.
  induction m as [|m IH]; intros s Hs; [reflexivity|]. cbn [seq map]. destruct (g (N.of_nat s)) as [[n k] w] eqn:Eg. cbn [assign].
  destruct (N.eqb_spec (e + 1 - N.of_nat s) 1) as [C|C].
  - assert (He : N.of_nat s = e) by lia. rewrite He, N.eqb_refl. cbn [fst]. f_equal. apply map_ext_in. intros x Hx. apply in_map_iff in Hx as (y & <- & Hy). apply in_seq in Hy.
    destruct (N.eqb_spec (N.of_nat y) e); [lia|reflexivity].
  - destruct (N.eqb_spec (N.of_nat s) e); [lia|]. f_equal. replace (e + 1 - N.of_nat s - 1) with (e + 1 - N.of_nat (S s)) by lia. apply IH. lia.
Qed.
Lemma put_ok a l e v : R a l -> exists a', step what a (Put e v) = Ok (a', Done) /\ R a' (assign l e v) /\ next (assign l e v) = next l.
Proof.
  intros (n & Hh & El). pose proof Hh as [Hm Hidx Hks Hkey Hd Hx Hnum Hu]. cbn [step].
  set (a' := mkA (by_index a) (by_key a) (akey a) (put (aval a) e v) (index a) (made a) (dead a)).
  assert (Ea : forall e0, e0 = e -> 1 <= e0 -> assign l e0 v = map (pl a') (ids n)).
  { intros e0 -> He. rewrite El. unfold ids. replace e with (e + 1 - N.of_nat 1) at 1 by lia. rewrite assign_map by lia. apply map_ext. intros x. unfold pl, a'. cbn [by_index akey aval fst].
    unfold put. destruct (x =? e); reflexivity. }
  assert (En : next (map (pl a') (ids n)) = next (map (pl a) (ids n))) by (apply next_numbers; rewrite !map_map; reflexivity).
  destruct ((0 <? e) && (e <? made a)) eqn:Ee.
  - exists a'. split; [reflexivity|]. rewrite (Ea e eq_refl) by lia. split; [|rewrite En, El; reflexivity]. exists n. split; [|reflexivity].
    split; [exact Hm|exact Hidx|exact Hks|exact Hkey|exact Hd|unfold a' at 1; cbn [index]; rewrite En; exact Hx|exact Hnum|exact Hu].
  - assert (Es : assign l e v = l).
    { destruct (N.eq_dec e 0) as [->|He]; [apply assign_zero|]. rewrite (Ea e eq_refl) by lia. rewrite El. apply map_ext_in. intros x Hin. apply ids_in in Hin.
      unfold pl, a'. cbn [by_index akey aval]. rewrite put_ne by lia. reflexivity. }
    exists a. rewrite Es. split; [reflexivity|]. split; [exists n; auto|reflexivity].
Qed.
Lemma all_ok a l : R a l -> exists a', step what a All = Ok (a', Elems l) /\ R a' l.
Proof.
  intros (n & Hh & El). pose proof Hh as [Hm Hidx Hks Hkey Hd Hx Hnum Hu]. cbn [step]. unfold all.
  destruct (tree_iterate N index_cmp index_preorder _ _ Hidx) as (t & -> & Ht & Hk). cbn [fuelled rbind fst snd].
  assert (Em : map (fun e => (key t e, akey a e, aval a e)) (ids n) = l).
  { rewrite El. apply map_ext_in. intros e He. unfold pl. rewrite (Hk e He). reflexivity. }
  eexists. split; [rewrite Em; reflexivity|]. exists n. set (a' := mkA t (by_key a) (akey a) (aval a) (index a) (made a) (dead a)).
  assert (Ep : map (pl a') (ids n) = map (pl a) (ids n)) by (rewrite <- El, <- Em; reflexivity).
  split; [|rewrite Ep; exact El].
  split; [exact Hm|exact Ht|exact Hks|exact Hkey|exact Hd|rewrite Ep; exact Hx| |exact Hu].
  intros e e' He He'. unfold a'. cbn [by_index]. rewrite !Hk by assumption. apply Hnum; assumption.
Qed.
Lemma step_ok a l o : R a l -> next l < 2 ^ 63 -> allowed what o ->
  exists a' r, step what a o = Ok (a', r) /\
    ((exists l', answer what l o = (l', r) /\ R a' l' /\ next l' <= N.max (next l + 1) (2 ^ 62)) \/ refusal o = Some r /\ R a' l).
Proof.
  intros HR Hn Ha. destruct o as [k f|k f|k f|e v|].
  - destruct (get_ok a l k f HR Hn Ha) as [(a' & e & E & H) Hb]. cbn [step]. rewrite E. cbn [rbind fst snd]. exists a', (Elem e). split; [reflexivity|].
    destruct H as [[H ->]|(Hf & H & ->)]; [left; eexists; split; [reflexivity|]; auto|right]. cbn [refusal]. destruct f; [auto|congruence].
  - destruct (index_ok a l k f HR Hn Ha) as (a' & e & E & H & Hb). cbn [step]. rewrite E. cbn [rbind fst snd]. exists a', (Elem e). split; [reflexivity|].
    destruct H as [[H ->]|(Hf & H & ->)]; [left; eexists; split; [reflexivity|]; auto|right]. cbn [refusal]. destruct f; [auto|congruence].
  - destruct (exist_ok a l k f HR ltac:(lia) Ha) as (b & E & H). cbn [step]. rewrite E. cbn [rbind]. exists a, (Is b). split; [reflexivity|].
    destruct H as [->|[Hf ->]]; [left; exists l; split; [reflexivity|]; split; [exact HR|lia]|right]. cbn [refusal]. destruct f; [auto|congruence].
  - destruct (put_ok a l e v HR) as (a' & E & H & Hb). exists a', Done. split; [exact E|]. left. exists (assign l e v). split; [reflexivity|]. split; [exact H|]. lia.
  - destruct (all_ok a l HR) as (a' & E & H). exists a', (Elems l). split; [exact E|]. left. exists l. split; [reflexivity|]. split; [exact H|lia].
Qed.
Lemma run_ok os : forall a l, R a l -> Forall (allowed what) os -> next l + N.of_nat (length os) <= 2 ^ 63 -> N.of_nat (length os) <= 2 ^ 62 ->
  exists a' rs l', run what a os = Ok (a', rs) /\ means what l os rs l' /\ R a' l' /\ next l' <= N.max (next l) (2 ^ 62) + N.of_nat (length os).
Proof.
  induction os as [|o os IH]; intros a l HR Hf Hb Hl; [exists a, [], l; split; [reflexivity|]; split; [constructor|]; split; [exact HR|cbn; lia]|].
  inversion Hf as [|? ? Ha Hf']; subst. cbn [length] in *. destruct (step_ok a l o HR ltac:(lia) Ha) as (a1 & r & E1 & H1).
  assert (X : exists l1, R a1 l1 /\ next l1 <= N.max (next l + 1) (2 ^ 62) /\ forall rs l', means what l1 os rs l' -> means what l (o :: os) (r :: rs) l').
  { destruct H1 as [(l1 & E & H & Hn)|[E H]]; [exists l1|exists l]; (split; [exact H|]; split; [lia|]; intros rs l' M); [eapply m_answer; eassumption|eapply m_refused; eassumption]. }
  destruct X as (l1 & HR1 & Hn1 & HM). destruct (IH a1 l1 HR1 Hf' ltac:(lia) ltac:(lia)) as (a2 & rs & l' & E2 & M & HR2 & Hn2).
  exists a2, (r :: rs), l'. cbn [run]. rewrite E1. cbn [rbind fst snd]. rewrite E2. cbn [rbind fst snd]. split; [reflexivity|]. split; [apply HM; exact M|]. split; [exact HR2|]. lia.
Qed.
Lemma run_app a os os' : run what a (os ++ os') = rbind (run what a os) (fun r => rbind (run what (fst r) os') (fun q => Ok (fst q, snd r ++ snd q))).
Proof.
  revert a. induction os as [|o os IH]; intros a; cbn [app run rbind fst snd].
  - destruct (run what a os') as [[x y]|]; reflexivity.
  - destruct (step what a o) as [[a1 r]|]; [|reflexivity]. cbn [rbind fst snd]. rewrite IH. destruct (run what a1 os) as [[a2 rs]|]; [|reflexivity]. cbn [rbind fst snd].
    destruct (run what a2 os') as [[a3 rs']|]; reflexivity.
Qed.

(** ** Histories *)
Section From.
Variables (t0 : rbtree N) (k0 : rbtree K).
Lemma history_ok os : Forall (allowed what) os -> N.of_nat (length os) <= 2 ^ 62 ->
  exists a rs l, run what (new t0 k0) os = Ok (a, rs) /\ means what [] os rs l /\ R a l /\ next l <= 2 ^ 62 + N.of_nat (length os).
Proof.
  intros Hf Hl. destruct (run_ok os (new t0 k0) [] (new_R t0 k0) Hf) as (a & rs & l & E & M & HR & Hn); [cbn [next fold_right]; lia|exact Hl|].
  exists a, rs, l. split; [exact E|]. split; [exact M|]. split; [exact HR|]. replace (next (@nil (place K))) with 0 in Hn by reflexivity. lia.
Qed.
Lemma unique_ok os a rs l : Forall (allowed what) os -> N.of_nat (length os) <= 2 ^ 62 -> run what (new t0 k0) os = Ok (a, rs) -> R a l ->
  NoDup (map number l) /\
  forall i j p q k k', nth_error l i = Some p -> nth_error l j = Some q -> key_of p = Some k -> key_of q = Some k' -> same_key (what k) (what k') = true -> i = j.
Proof.
  intros _ _ _ (n & [Hm Hidx Hks Hkey Hd Hx Hnum Hu] & ->). split.
  - rewrite map_map. clear - Hnum. assert (Hnd : NoDup (ids n)). { unfold ids. apply FinFun.Injective_map_NoDup; [intros x y; apply Nnat.Nat2N.inj|apply seq_NoDup]. }
    revert Hnum Hnd. generalize (ids n). induction l as [|e l IH]; intros Hnum Hnd; [constructor|]. cbn [map]. inversion Hnd as [|? ? H1 H2]; subst. constructor.
    + intros C. apply in_map_iff in C as (e' & E & He'). unfold number, pl in E. cbn [fst] in E.
      assert (e' = e) by (apply Hnum; [right; exact He'|left; reflexivity|exact E]). subst. contradiction.
    + apply IH; [|exact H2]. intros x y Hx Hy. apply Hnum; right; assumption.
  - assert (Nth : forall i p, nth_error (map (pl a) (ids n)) i = Some p -> In (N.of_nat i + 1) (ids n) /\ p = pl a (N.of_nat i + 1)).
    { intros i p H. unfold ids in *. rewrite map_map in H. pose proof (nth_error_nth' (seq 1 n) O (n := i)) as X. assert (Hlt : (i < n)%nat).
      { assert (Y : nth_error (map (fun x => pl a (N.of_nat x)) (seq 1 n)) i <> None) by congruence. apply nth_error_Some in Y. rewrite map_length, seq_length in Y. exact Y. }
      specialize (X ltac:(rewrite seq_length; exact Hlt)). rewrite seq_nth in X by exact Hlt. rewrite (map_nth_error _ _ _ X) in H. injection H as <-.
      split; [|f_equal; lia]. apply in_map_iff. exists (S i). split; [lia|]. apply in_seq. lia. }
    intros i j p q k k' Hi Hj. apply Nth in Hi as [Hi ->], Hj as [Hj ->]. unfold key_of, pl. cbn [fst snd]. intros E1 E2 Es. pose proof (Hu _ _ k k' Hi Hj E1 E2 Es). lia.
Qed.

(** Places stay where they are. *)
Definition kept (l l' : list (place K)) : Prop := exists x, map fst l' = map fst l ++ x.
Lemma kept_refl l : kept l l. Proof. exists []. symmetry. apply app_nil_r. Qed.
Lemma kept_trans l1 l2 l3 : kept l1 l2 -> kept l2 l3 -> kept l1 l3.
Proof. intros [x H1] [y H2]. exists (x ++ y). rewrite H2, H1, app_assoc. reflexivity. Qed.
Lemma take_kept l is p : kept l (fst (take l is p)).
Proof. unfold take. destruct (find is 1 l); cbn [fst]; [apply kept_refl|]. exists [fst p]. rewrite map_app. reflexivity. Qed.
Lemma assign_kept (l : list (place K)) : forall e v, map fst (assign l e v) = map fst l.
Proof. induction l as [|[[n k] w] l IH]; intros e v; [reflexivity|]. cbn [assign]. destruct (e =? 1); cbn [map fst]; [reflexivity|]. rewrite IH. reflexivity. Qed.
Lemma fetch_kept l k : kept l (fst (fetch what l k)).
Proof. unfold fetch. destruct k as [k|]; [destruct (what k)|]; apply take_kept. Qed.
Lemma answer_kept l o l' r : answer what l o = (l', r) -> kept l l'.
Proof.
  destruct o as [k f|k f|k f|e v|]; cbn [answer]; intros H; injection H as <- <-; try apply kept_refl; try apply fetch_kept.
  - unfold fetch_back. destruct (what k) as [|i| | | | | |]; try apply fetch_kept. destruct (i <? 0)%Z; [|apply fetch_kept].
    destruct (_ <? 0)%Z; [apply kept_refl|apply take_kept].
  - exists []. rewrite assign_kept. symmetry. apply app_nil_r.
Qed.
Lemma means_kept l os rs l' : means what l os rs l' -> kept l l'.
Proof. induction 1 as [|l o os r rs l1 E l2 M IH|l o os r rs E l2 M IH]; [apply kept_refl|eapply kept_trans; [eapply answer_kept; exact E|exact IH]|exact IH]. Qed.
(** So do values that are not given anew. *)
Definition value (l : list (place K)) (e : N) : option val := option_map snd (nth_error l (N.to_nat (e - 1))).
Lemma take_value l is p e v : value l e = Some v -> value (fst (take l is p)) e = Some v.
Proof.
  unfold take, value. destruct (find is 1 l); cbn [fst]; [auto|]. intros H. rewrite nth_error_app1; [exact H|]. apply nth_error_Some. intros C. rewrite C in H. discriminate.
Qed.
Lemma assign_value (l : list (place K)) : forall e e' v, 1 <= e -> e' <> e -> value (assign l e' v) e = value l e.
Proof.
  unfold value. induction l as [|[[n k] w] l IH]; intros e e' v He Hne; [reflexivity|]. cbn [assign]. destruct (N.eqb_spec e' 1) as [->|H1].
  - replace (N.to_nat (e - 1)) with (S (N.to_nat (e - 2))) by lia. reflexivity.
  - destruct (N.eq_dec e 1) as [->|H2]; [reflexivity|]. replace (N.to_nat (e - 1)) with (S (N.to_nat (e - 1 - 1))) by lia. cbn [nth_error].
    destruct (N.eq_dec e' 0) as [->|H0]; [change (0 - 1) with 0; rewrite assign_zero; reflexivity|]. apply IH; lia.
Qed.
Lemma assign_here (l : list (place K)) : forall e v, 1 <= e -> (N.to_nat e <= length l)%nat -> value (assign l e v) e = Some v.
Proof.
  unfold value. induction l as [|[[n k] w] l IH]; intros e v He Hl; cbn [length] in Hl; [lia|]. cbn [assign]. destruct (N.eqb_spec e 1) as [->|H1]; [reflexivity|].
  replace (N.to_nat (e - 1)) with (S (N.to_nat (e - 1 - 1))) by lia. cbn [nth_error]. apply IH; lia.
Qed.
Lemma fetch_value l k e v : value l e = Some v -> value (fst (fetch what l k)) e = Some v.
Proof. unfold fetch. destruct k as [k|]; [destruct (what k)|]; apply take_value. Qed.
Lemma answer_value l o l' r e v : answer what l o = (l', r) -> 1 <= e -> (forall w, o <> Put e w) -> value l e = Some v -> value l' e = Some v.
Proof.
  destruct o as [k f|k f|k f|e' w|]; cbn [answer]; intros H He Ho Hv; injection H as <- <-; auto; try (apply fetch_value; exact Hv).
  - unfold fetch_back. destruct (what k) as [|i| | | | | |]; try (apply fetch_value; exact Hv). destruct (i <? 0)%Z; [|apply fetch_value; exact Hv].
    destruct (_ <? 0)%Z; [exact Hv|apply take_value; exact Hv].
  - rewrite assign_value; [exact Hv|exact He|]. intros ->. exact (Ho w eq_refl).
Qed.
Lemma means_value l os rs l' e v : means what l os rs l' -> 1 <= e -> (forall w, ~ In (Put e w) os) -> value l e = Some v -> value l' e = Some v.
Proof.
  intros M He. induction M as [|l o os r rs l1 E l2 M IH|l o os r rs E l2 M IH]; intros Ho Hv; [exact Hv| |].
  - apply IH; [intros w C; apply (Ho w); right; exact C|]. eapply answer_value; [exact E|exact He| |exact Hv]. intros w ->. apply (Ho w). left. reflexivity.
  - apply IH; [intros w C; apply (Ho w); right; exact C|exact Hv].
Qed.
Lemma find_range is (l : list (place K)) : forall n e, find is n l = Some e -> n <= e < n + N.of_nat (length l).
Proof.
  induction l as [|p l IH]; intros n e; [discriminate|]. cbn [find length]. destruct (is p); [intros H; injection H as <-; lia|]. intros H. apply IH in H. lia.
Qed.
Lemma find_kept is (l : list (place K)) : (forall p q, fst p = fst q -> is p = is q) -> forall l' n e, kept l l' -> find is n l = Some e -> find is n l' = Some e.
Proof.
  intros His. induction l as [|p l IH]; intros l' n e [x Hx]; [discriminate|]. destruct l' as [|q l']; [discriminate|]. cbn [map app] in Hx. injection Hx as H1 H2. cbn [find].
  rewrite (His q p H1). destruct (is p); [auto|]. apply IH. exists x. exact H2.
Qed.
Lemma find_end is (l : list (place K)) p : is p = true -> forall n, find is n l = None -> find is n (l ++ [p]) = Some (n + N.of_nat (length l)).
Proof.
  intros Hp. induction l as [|q l IH]; intros n; cbn [app find length]; [intros _; rewrite Hp; f_equal; lia|]. destruct (is q); [discriminate|]. intros H.
  rewrite (IH _ H). f_equal. lia.
Qed.
(** The place of a key is found again. *)
Lemma fetch_again l k e l1 l2 : what k <> Nil -> fetch what l (Some k) = (l1, Some e) -> (1 <= e /\ (N.to_nat e <= length l1)%nat) /\ (kept l1 l2 -> fetch what l2 (Some k) = (l2, Some e)).
Proof.
  intros Hk. assert (X : forall is p, (forall p q, fst p = fst q -> is p = is q) -> is p = true -> take l is p = (l1, Some e) ->
    (1 <= e /\ (N.to_nat e <= length l1)%nat) /\ (kept l1 l2 -> forall p', take l2 is p' = (l2, Some e))).
  { intros is p His Hp H. assert (Hf : find is 1 l1 = Some e).
    { unfold take in H. destruct (find is 1 l) as [e'|] eqn:Ef; [injection H as <- <-; exact Ef|].
      pose proof (f_equal fst H) as A. pose proof (f_equal snd H) as B. cbn [fst snd] in A, B. rewrite <- A, <- B. apply find_end; assumption. }
    split; [apply find_range in Hf; lia|]. intros Hl p'. unfold take. rewrite (find_kept is l1 His l2 1 e Hl Hf). reflexivity. }
  assert (H1 : forall n (p q : place K), fst p = fst q -> numbered n p = numbered n q) by (intros n p q E; unfold numbered, number; rewrite E; reflexivity).
  assert (H2 : forall (p q : place K), fst p = fst q -> has_key what k p = has_key what k q) by (intros p q E; unfold has_key, key_of; rewrite E; reflexivity).
  assert (H3 : what k <> Nil -> has_key what k (next l, Some k, Nil) = true).
  { intros _. unfold has_key, key_of. cbn [fst snd]. pose proof (proj2 (key_zero K what Hkeys k k)) as _. clear - Hk Hkeys. pose proof (proj1 Hkeys k) as F.
    destruct (what k) as [|i|b|[r|]|s|p|t p|p]; cbn [same_key]; try apply Z.eqb_refl; try apply N.eqb_refl; try congruence.
    - destruct b; reflexivity. - destruct F. - destruct (list_eq_dec N.eq_dec (s_bytes s) (s_bytes s)); congruence. - rewrite !N.eqb_refl. reflexivity. }
  assert (Hint : forall i, fetch what l (Some k) = take l (numbered (Z.to_N i)) (Z.to_N i, None, Nil) -> fetch what l2 (Some k) = take l2 (numbered (Z.to_N i)) (Z.to_N i, None, Nil) ->
    fetch what l (Some k) = (l1, Some e) -> (1 <= e /\ (N.to_nat e <= length l1)%nat) /\ (kept l1 l2 -> fetch what l2 (Some k) = (l2, Some e))).
  { intros i Q1 Q2 H. rewrite Q1 in H. destruct (X (numbered (Z.to_N i)) (Z.to_N i, None, Nil) (H1 (Z.to_N i)) (N.eqb_refl (Z.to_N i)) H) as [Y1 Y2]. split; [exact Y1|]. intros Hl. rewrite Q2. apply Y2. exact Hl. }
  assert (Hoth : fetch what l (Some k) = take l (has_key what k) (next l, Some k, Nil) -> fetch what l2 (Some k) = take l2 (has_key what k) (next l2, Some k, Nil) ->
    fetch what l (Some k) = (l1, Some e) -> (1 <= e /\ (N.to_nat e <= length l1)%nat) /\ (kept l1 l2 -> fetch what l2 (Some k) = (l2, Some e))).
  { intros Q1 Q2 H. rewrite Q1 in H. destruct (X (has_key what k) (next l, Some k, Nil) H2 (H3 Hk) H) as [Y1 Y2]. split; [exact Y1|]. intros Hl. rewrite Q2. apply Y2. exact Hl. }
  clear X H1 H2 H3. unfold fetch in *. destruct (what k) as [|i| | | | | |]; [congruence|exact (Hint i eq_refl eq_refl)|exact (Hoth eq_refl eq_refl)..].
Qed.
Lemma keeps_ok os k f os2 a rs e v : Forall (allowed what) (os ++ Get (Some k) f :: os2) -> N.of_nat (length os + length os2) + 4 <= 2 ^ 62 -> what k <> Nil ->
  run what (new t0 k0) (os ++ [Get (Some k) f]) = Ok (a, rs ++ [Elem (Some e)]) -> (forall w, ~ In (Put e w) os2) ->
  exists a' rs' l, run what a (Put e v :: os2 ++ [Get (Some k) None; All]) = Ok (a', rs' ++ [Elem (Some e); Elems l]) /\ value l e = Some v.
Proof.
  intros Hf Hl Hk E Ho. apply Forall_app in Hf as [Hf1 Hf2]. inversion Hf2 as [|? ? Hg Hf3]; subst.
  destruct (history_ok os Hf1 ltac:(lia)) as (a0 & rs0 & l0 & E0 & M0 & HR0 & Hn0). rewrite run_app, E0 in E. cbn [rbind fst snd] in E.
  destruct (get_ok a0 l0 (Some k) f HR0 ltac:(lia) Hg) as [(a1 & e1 & E1 & H1) Hb]. cbn [run step] in E. rewrite E1 in E. cbn [rbind fst snd] in E. injection E as <- E.
  apply app_inj_tail in E as [_ E]. injection E as ->. destruct H1 as [[HR1 He]|(_ & _ & C)]; [|discriminate].
  destruct (fetch what l0 (Some k)) as [l1 x] eqn:Ef. cbn [fst snd] in *. subst x.
  destruct (fetch_again l0 k e l1 l1 Hk Ef) as [[He1 He2] _].
  destruct (put_ok a1 l1 e v HR1) as (a2 & E2 & HR2 & Hn2).
  assert (Hv : value (assign l1 e v) e = Some v) by (apply assign_here; assumption).
  destruct (run_ok os2 a2 (assign l1 e v) HR2 Hf3 ltac:(lia) ltac:(lia)) as (a3 & rs3 & l3 & E3 & M3 & HR3 & Hn3).
  pose proof (means_value _ _ _ _ e v M3 He1 Ho Hv) as Hv3.
  assert (Hkept : kept l1 l3). { eapply kept_trans; [|eapply means_kept; exact M3]. exists []. rewrite assign_kept. symmetry. apply app_nil_r. }
  destruct (fetch_again l0 k e l1 l3 Hk Ef) as [_ Ef3]. specialize (Ef3 Hkept).
  assert (Hg2 : allowed what (Get (Some k) None)). { destruct Hg as [_ Hg]. split; [discriminate|exact Hg]. }
  destruct (get_ok a3 l3 (Some k) None HR3 ltac:(lia) Hg2) as [(a4 & e4 & E4 & H4) _]. rewrite Ef3 in H4. cbn [fst snd] in H4. destruct H4 as [[HR4 ->]|(C & _)]; [|congruence].
  destruct (all_ok a4 l3 HR4) as (a5 & E5 & HR5).
  exists a5, (Done :: rs3), l3. split; [|exact Hv3]. cbn [app]. cbn [run]. rewrite E2. cbn [rbind fst snd]. rewrite run_app, E3. cbn [rbind fst snd]. cbn [run].
  cbn [step] in *. rewrite E4. cbn [rbind fst snd]. rewrite E5. cbn [rbind fst snd]. reflexivity.
Qed.
(** The operand. *)
Lemma operand_ok os a rs k f a' e v : Forall (allowed what) (os ++ [Index k f]) -> N.of_nat (length os) + 1 <= 2 ^ 62 -> run what (new t0 k0) os = Ok (a, rs) ->
  index_op what a k f = Ok (a', Some e, v) -> what k <> Int (-1) -> v = what k.
Proof.
  intros Hf Hl E Ei Hne. apply Forall_app in Hf as [Hf1 Hf2]. inversion Hf2 as [|? ? Hg _]; subst.
  destruct (history_ok os Hf1 ltac:(lia)) as (a0 & rs0 & l0 & E0 & M0 & HR0 & Hn0). rewrite E0 in E. injection E as -> ->.
  destruct (index_ok a l0 k f HR0 ltac:(lia) Hg) as (a1 & e1 & E1 & _). rewrite E1 in Ei. injection Ei as _ -> <-. unfold operand.
  destruct (what k) as [|i| | | | | |]; try reflexivity. destruct (i <? 0)%Z; [|reflexivity]. destruct (Z.eqb_spec i (-1)) as [->|]; [congruence|reflexivity].
Qed.
End From.
End Array.

(** * Theorems about documents made from formats *)
Require Import List Arith NArith ZArith Bool Lia String Ascii.
Require Import Verif.Base Verif.JsonNumModel Verif.JsonModel Verif.JsonSpec Verif.JsonObjModel Verif.JsonObjSpec Verif.JsonObjProofs Verif.HttpModel Verif.JgenModel Verif.JgenSpec Verif.JgenProofs.
Import ListNotations.
Open Scope N_scope.
Open Scope list_scope.

(** The keys of the document are there once. *)
Definition once (j : json) : Prop := match j with JObj m => NoDup (map fst m) | _ => True end.

(** A document is what the format says of the arguments, at any depth: members are put and elements are appended in the order of the format. *)
Theorem json_generate_says : forall look lax j v t a rest more, exact_look look -> once j -> adds lax j v t a -> generate look j (t ++ rest) (a ++ more) = Zero v.
Proof.
  intros look lax j v t a rest more L O A. destruct (says_ok look L lax) as (_ & So & _ & Sa & _).
  assert (X : forall (l : list N), (List.length l <= S (List.length (l ++ rest)))%nat) by (intros l; rewrite app_length; lia).
  destruct A as [m t a H|l t a H|m0 m t a H|l0 l t a H]; unfold generate; cbn [app N.eqb Pos.eqb].
  - now rewrite (So _ _ _ _ H) by (apply X || constructor).
  - now rewrite (Sa _ _ _ _ H) by apply X.
  - now rewrite (So _ _ _ _ H) by (apply X || exact O).
  - now rewrite (Sa _ _ _ _ H) by apply X.
Qed.
Print Assumptions json_generate_says.

(** Nothing else is made: if the answer is 0 then a beginning of the format says the document, of a beginning of the arguments.
    Proved only for formats that may have a comma before a closing bracket, and anything behind the last bracket. *)
Theorem json_generate_only_partial : forall look j v f args, exact_look look -> once j -> generate look j f args = Zero v ->
  exists t rest a more, f = t ++ rest /\ args = a ++ more /\ adds true j v t a.
Proof.
  intros look j v f args L O E. unfold generate in E. destruct f as [|c f]; [discriminate|].
  assert (Bo : forall m, NoDup (map fst m) -> match body look (S (List.length f)) (JObj m) f args with Made j _ _ => Zero j | Failed rest => Minus JNone (docs (firstn (List.length args - List.length rest) args)) | Undef => Undefined | NoFuel => OutOfFuel end = Zero v ->
    exists m' t rest a more, v = JObj m' /\ f = t ++ rest /\ args = a ++ more /\ object true m m' t a).
  { intros m D X. destruct (body look (S (List.length f)) (JObj m) f args) as [j' f' r'|r'| |] eqn:B; try discriminate. injection X as ->. destruct (body_only look L (S (List.length f))) as [H _]. destruct (H _ _ _ _ _ _ D B) as (m' & t & a & -> & -> & -> & Ob). exists m', t, f', a, r'. auto. }
  assert (Ba : forall m, match body look (S (List.length f)) (JArr m) f args with Made j _ _ => Zero j | Failed rest => Minus JNone (docs (firstn (List.length args - List.length rest) args)) | Undef => Undefined | NoFuel => OutOfFuel end = Zero v ->
    exists m' t rest a more, v = JArr m' /\ f = t ++ rest /\ args = a ++ more /\ array true m m' t a).
  { intros m X. destruct (body look (S (List.length f)) (JArr m) f args) as [j' f' r'|r'| |] eqn:B; try discriminate. injection X as ->. destruct (body_only look L (S (List.length f))) as [_ H]. destruct (H _ _ _ _ _ _ B) as (m' & t & a & -> & -> & -> & Ob). exists m', t, f', a, r'. auto. }
  destruct (N.eqb_spec c 123) as [->|N1]; [|destruct (N.eqb_spec c 91) as [->|N2]; [|discriminate]]; destruct j as [|m|l| | | | |]; try discriminate.
  - destruct (Bo [] ltac:(constructor) E) as (m' & t & rest & a & more & -> & -> & -> & Ob). exists (123 :: t), rest, a, more. repeat split; auto. now constructor.
  - destruct (Bo m O E) as (m' & t & rest & a & more & -> & -> & -> & Ob). exists (123 :: t), rest, a, more. repeat split; auto. now constructor.
  - destruct (Ba [] E) as (m' & t & rest & a & more & -> & -> & -> & Ob). exists (91 :: t), rest, a, more. repeat split; auto. now constructor.
  - destruct (Ba l E) as (m' & t & rest & a & more & -> & -> & -> & Ob). exists (91 :: t), rest, a, more. repeat split; auto. now constructor.
Qed.
Print Assumptions json_generate_only_partial.

(** Every call comes to an end: 0, -1, or an argument of another type than its letter. *)
Theorem json_generate_total : forall look j f args, generate look j f args <> OutOfFuel.
Proof.
  intros look j f args. unfold generate. destruct f as [|c f]; [discriminate|].
  assert (B : forall j, match body look (S (List.length f)) j f args with Made j _ _ => Zero j | Failed rest => Minus JNone (docs (firstn (List.length args - List.length rest) args)) | Undef => Undefined | NoFuel => OutOfFuel end <> OutOfFuel).
  { intros j'. pose proof (body_total look (S (List.length f)) j' f args ltac:(lia)) as T. destruct (body look (S (List.length f)) j' f args); try discriminate. destruct T. }
  destruct (c =? 123); [destruct j; try discriminate; apply B|]. destruct (c =? 91); [destruct j; try discriminate; apply B|]. discriminate.
Qed.
Print Assumptions json_generate_total.

(** A format, and a document made of it: the second member with the key a takes the place of the first. *)
Definition ex_args : list arg := [AText (text "a"); AInt32 (-3); AText (text "b"); AReal (z2d 2); AString (text "x"); ACall (Some (JStr (text "a"))); ADoc (JArr [JNull])].
Definition ex_made : json := JObj [(text "a", JArr [JNull]); (text "b", JArr [JTrue; JObj []; JNum (z2d 2); JStr (text "x")])].
Example ex_generate : generate find_key JNone (text "{s:d,s:[t,{},F,S],c:j}") ex_args = Zero ex_made.
Proof. vm_compute. reflexivity. Qed.
Example ex_says : exact_look find_key /\ once JNone /\ adds false JNone ex_made (text "{s:d,s:[t,{},F,S],c:j}") ex_args.
Proof.
  split; [exact find_key_exact|]. split; [exact I|]. apply (add_new_obj false _ (text "s:d,s:[t,{},F,S],c:j}") ex_args). apply o_members.
  apply (m_more false [] 115 [AText (text "a")] (text "a") (JNum (z2d (-3))) [100] [AInt32 (-3)] _ (text "s:[t,{},F,S],c:j}") (skipn 2 ex_args)).
  { split; [cbn; auto|constructor]. } { apply s_letter. constructor. }
  apply (m_more false _ 115 [AText (text "b")] (text "b") (JArr [JTrue; JObj []; JNum (z2d 2); JStr (text "x")]) (text "[t,{},F,S]") [AReal (z2d 2); AString (text "x")] _ (text "c:j}") (skipn 5 ex_args)).
  { split; [cbn; auto|constructor]. }
  { apply (s_arr false _ (text "t,{},F,S]")). apply a_elements.
    apply (e_more false [] JTrue [116] [] _ (text "{},F,S]") [AReal (z2d 2); AString (text "x")]); [apply s_letter; constructor|].
    apply (e_more false _ (JObj []) (text "{}") [] _ (text "F,S]") [AReal (z2d 2); AString (text "x")]); [apply (s_obj false [] (text "}")); constructor|].
    apply (e_more false _ (JNum (z2d 2)) [70] [AReal (z2d 2)] _ (text "S]") [AString (text "x")]); [apply s_letter; constructor|].
    apply (e_last false [JTrue; JObj []; JNum (z2d 2)] (JStr (text "x")) [83] [AString (text "x")]). apply s_letter. constructor. }
  apply (m_last false [(text "a", JNum (z2d (-3))); (text "b", JArr [JTrue; JObj []; JNum (z2d 2); JStr (text "x")])] 99 [ACall (Some (JStr (text "a")))] (text "a") (JArr [JNull]) [106] [ADoc (JArr [JNull])]); [split; [cbn; auto|constructor]|apply s_letter; constructor].
Qed.
(** A member is added to a document that is there. *)
Example ex_adds : once ex_made /\ generate find_key ex_made (text "{s:n}") [AText (text "a")] = Zero (JObj [(text "a", JNull); (text "b", JArr [JTrue; JObj []; JNum (z2d 2); JStr (text "x")])]).
Proof. split; [|vm_compute; reflexivity]. repeat constructor; cbn; intuition discriminate. Qed.

(** ** What is not so *)
(** A format with a comma before the closing bracket, or with something behind the last bracket, is taken for a right one. *)
Lemma strict_object m0 m t a : object false m0 m t a -> t <> [125] -> exists t', t = t' ++ [125] /\ forall c t'', t' = t'' ++ [c] -> c <> 44.
Proof.
  intros H N. destruct H as [m0|m0 m t a H]; [congruence|]. clear N.
  assert (S1 : forall v t a, says false v t a -> t <> [] /\ forall c t'', t = t'' ++ [c] -> c <> 44).
  { assert (Cl : forall (l : list N) c x t'', l ++ [x] = t'' ++ [c] -> c = x) by (intros l c x t'' X; apply app_inj_tail in X; symmetry; apply X).
    assert (All : (forall v t a, says false v t a -> t <> [] /\ forall c t'', t = t'' ++ [c] -> c <> 44) /\
      (forall m0 m t a, object false m0 m t a -> exists u, t = u ++ [125]) /\ (forall m0 m t a, members false m0 m t a -> exists u, t = u ++ [125]) /\
      (forall m0 m t a, array false m0 m t a -> exists u, t = u ++ [93]) /\ (forall m0 m t a, elements false m0 m t a -> exists u, t = u ++ [93])).
    { apply says_all; try discriminate.
      - intros c a0 v0 L. split; [discriminate|]. intros c0 t'' X. apply (Cl [] c0 c t'') in X. subst c0. destruct L; discriminate.
      - intros m1 t1 a1 _ (u & ->). split; [discriminate|]. intros c t'' X. apply (Cl (123 :: u) c 125 t'') in X. subst. discriminate.
      - intros m1 t1 a1 _ (u & ->). split; [discriminate|]. intros c t'' X. apply (Cl (91 :: u) c 93 t'') in X. subst. discriminate.
      - intros _. now exists [].
      - auto.
      - intros m1 c ka k v t1 a1 _ _ _. now exists (c :: 58 :: t1).
      - intros m1 c ka k v t1 a1 m2 t2 a2 _ _ _ _ (u & ->). exists (c :: 58 :: t1 ++ 44 :: u). cbn [app]. now rewrite <- app_assoc.
      - intros _. now exists [].
      - auto.
      - intros l0 v t1 a1 _ _. now exists t1.
      - intros l0 v t1 a1 l t2 a2 _ _ _ (u & ->). exists (t1 ++ 44 :: u). now rewrite <- app_assoc. }
    apply All. }
  induction H as [m0 c ka k v t a K H|m0 c ka k v t a X|m0 c ka k v t a m t' a' K H H2 IH].
  - destruct (S1 _ _ _ H) as [N1 N2]. exists (c :: 58 :: t). split; [reflexivity|]. intros c' t'' E. destruct (exists_last N1) as (t1 & x & ->). change (c :: 58 :: t1 ++ [x]) with ((c :: 58 :: t1) ++ [x]) in E. apply app_inj_tail in E. destruct E as [_ <-]. apply (N2 x t1). reflexivity.
  - discriminate.
  - destruct IH as (u & -> & U). exists (c :: 58 :: t ++ 44 :: u). split; [cbn [app]; now rewrite <- app_assoc|]. intros c' t'' E.
    destruct u as [|x0 u0] eqn:Eu; [inversion H2; subst; destruct t0; discriminate|]. destruct (exists_last (l := x0 :: u0) ltac:(discriminate)) as (u1 & x & E1). rewrite E1 in *.
    replace (c :: 58 :: t ++ 44 :: u1 ++ [x]) with ((c :: 58 :: t ++ 44 :: u1) ++ [x]) in E by (cbn [app]; now rewrite <- app_assoc). apply app_inj_tail in E. destruct E as [_ <-]. apply (U x u1). reflexivity.
Qed.
Theorem json_generate_strict_refuted : ~ (forall look j v f args, exact_look look -> once j -> generate look j f args = Zero v -> exists a more, args = a ++ more /\ adds false j v f a).
Proof.
  intros H. destruct (H find_key JNone (JObj [(text "a", JNull)]) (text "{s:n,}") [AText (text "a")] find_key_exact I ltac:(vm_compute; reflexivity)) as (a & more & _ & A).
  remember (text "{s:n,}") as f. remember JNone as j. remember (JObj [(text "a", JNull)]) as v. destruct A; try discriminate. injection Heqf as ->. destruct (strict_object _ _ _ _ H0 ltac:(discriminate)) as (t' & E & C).
  apply (app_inj_tail [115; 58; 110; 44] t' 125 125) in E. destruct E as [<- _]. apply (C 44 [115; 58; 110]); reflexivity.
Qed.
Print Assumptions json_generate_strict_refuted.
(** A format that fails does not leave the document as it was: it is emptied. *)
Theorem json_generate_kept_refuted : ~ (forall look j j' f args l, exact_look look -> generate look j f args = Minus j' l -> j' = j).
Proof.
  intros H. specialize (H find_key (JObj [(text "a", JTrue)]) JNone (text "{s:x}") [AText (text "b")] [] find_key_exact ltac:(vm_compute; reflexivity)). discriminate.
Qed.
Print Assumptions json_generate_kept_refuted.
(** Nor are the documents that were given with j still the caller's: those before the fault are destroyed, and those behind it are not. *)
Theorem json_generate_owner_refuted : ~ (forall look j j' f args l, exact_look look -> generate look j f args = Minus j' l -> l = []) /\
  ~ (forall look j j' f args l, exact_look look -> j = JNone -> generate look j f args = Minus j' l -> l = docs args).
Proof.
  split; intros H.
  - specialize (H find_key JNone JNone (text "[j,x]") [ADoc (JStr (text "a"))] [JStr (text "a")] find_key_exact ltac:(vm_compute; reflexivity)). discriminate.
  - specialize (H find_key JNone JNone (text "[x,j]") [ADoc (JStr (text "a"))] [] find_key_exact eq_refl ltac:(vm_compute; reflexivity)). discriminate.
Qed.
Print Assumptions json_generate_owner_refuted.
(** Integers of 64 bits are not kept: two of them make the same document. *)
Theorem json_generate_int64_refuted : ~ (forall look f z z' v, exact_look look -> generate look JNone f [AInt64 z] = Zero v -> generate look JNone f [AInt64 z'] = Zero v -> f = text "[D]" -> z = z').
Proof.
  intros H. specialize (H find_key (text "[D]") (2 ^ 53)%Z (2 ^ 53 + 1)%Z (JArr [JNum (z2d (2 ^ 53))]) find_key_exact ltac:(vm_compute; reflexivity) ltac:(vm_compute; reflexivity) eq_refl). discriminate.
Qed.
Print Assumptions json_generate_int64_refuted.

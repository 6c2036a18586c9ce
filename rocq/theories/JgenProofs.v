(** * mln_json_generate: proofs *)
Require Import List Arith NArith ZArith Bool Lia.
Require Import ZifyBool ZifyNat ZifyN.
Require Import Verif.Base Verif.JsonNumModel Verif.JsonModel Verif.JsonSpec Verif.JsonObjModel Verif.JsonObjSpec Verif.JsonObjProofs Verif.JgenModel Verif.JgenSpec.
Import ListNotations.
Open Scope N_scope.

Scheme says_rec := Minimality for says Sort Prop
with object_rec := Minimality for object Sort Prop
with members_rec := Minimality for members Sort Prop
with array_rec := Minimality for array Sort Prop
with elements_rec := Minimality for elements Sort Prop.
Combined Scheme says_all from says_rec, object_rec, members_rec, array_rec, elements_rec.

Lemma letter_leaf c a v r : letter c a v -> leaf c (a ++ r) = Val v r /\ c <> 123 /\ c <> 91 /\ c <> 93 /\ c <> 125.
Proof. intros H. destruct H; (split; [reflexivity|repeat split; discriminate]). Qed.
Lemma leaf_letter c args v r : leaf c args = Val v r -> exists a, args = a ++ r /\ letter c a v.
Proof.
  unfold leaf. intros E.
  repeat match type of E with (if ?x =? ?y then _ else _) = _ => destruct (N.eqb_spec x y); [subst|] end; try discriminate;
    try (injection E as <- <-; exists []; split; [reflexivity|constructor]);
    (destruct args as [|[] args]; try discriminate); try (injection E as <- <-; eexists [_]; split; [reflexivity|constructor]).
  destruct r0; [|discriminate]. injection E as <- <-. eexists [_]; split; [reflexivity|constructor].
Qed.
Lemma key_letter_key c a k r : key_letter c a k -> key c (a ++ r) = Val (JStr k) r /\ c <> 125.
Proof. intros [I H]. inversion H; subst; try solve [exfalso; cbn [In] in I; repeat (destruct I as [I|I]; [discriminate|]); destruct I]; (split; [reflexivity|discriminate]). Qed.
Lemma key_key_letter c args k r : key c args = Val (JStr k) r -> exists a, args = a ++ r /\ key_letter c a k.
Proof.
  unfold key. intros E. repeat match type of E with (if ?x =? ?y then _ else _) = _ => destruct (N.eqb_spec x y); [subst|] end; try discriminate; (destruct args as [|[] args]; try discriminate).
  - injection E as <- <-. eexists [_]. split; [reflexivity|]. split; [cbn; auto|constructor].
  - injection E as <- <-. eexists [_]. split; [reflexivity|]. split; [cbn; auto|constructor].
  - destruct r0 as [v|]; [|discriminate]. injection E as -> <-. eexists [_]. split; [reflexivity|]. split; [cbn; auto|constructor].
Qed.

Section Look.
Variable look : list (list N) -> list N -> option nat.
Hypothesis Hlook : exact_look look.
Lemma put_at k v : forall (m : list (list N * json)) i, NoDup (map fst m) -> nth_error (map fst m) i = Some k -> upd m i (k, v) = put k v m.
Proof.
  induction m as [|[k' v'] m IH]; intros i D E; [destruct i; discriminate|]. cbn [map fst] in *. inversion D as [|? ? D1 D2]; subst. destruct i as [|i]; cbn [nth_error upd put] in *.
  - injection E as ->. rewrite same_refl. reflexivity.
  - destruct (same k k') eqn:S1; [|f_equal; auto]. apply same_iff in S1. subst k'. exfalso. apply D1. eapply nth_error_In; eauto.
Qed.
Lemma update_put (m : list (list N * json)) k v : NoDup (map fst m) -> obj_update look m k v = put k v m.
Proof.
  intros D. unfold obj_update. destruct Hlook as [H1 H2]. destruct (look (map fst m) k) as [i|] eqn:E.
  - apply put_at; auto.
  - rewrite put_new; auto.
Qed.
Lemma put_once (m : list (list N * json)) k v : NoDup (map fst m) -> NoDup (map fst (put k v m)).
Proof.
  intros D. destruct (in_dec (list_eq_dec N.eq_dec) k (map fst m)) as [I|I].
  - now rewrite put_keys.
  - rewrite put_new, map_app by exact I. cbn [map fst]. apply NoDup_rev in D. rewrite <- (rev_involutive (map fst m ++ [k])). apply NoDup_rev. rewrite rev_app_distr. cbn [rev app]. constructor; [|exact D]. intros X. apply I. now apply in_rev.
Qed.

(** One value, and what stands behind it. *)
Definition value (fuel : nat) (c : N) (f : list N) (args : list arg) : gres :=
  if c =? 123 then body look fuel (JObj []) f args
  else if c =? 91 then body look fuel (JArr []) f args
  else match leaf c args with Val v r => Made v f r | Fails => Failed args | Wrong => Undef end.
Definition next (fuel : nat) (j : json) (close : N) (f : list N) (args : list arg) : gres :=
  match f with
  | [] => Failed args
  | c :: f => if c =? close then Made j f args else if c =? 44 then body look fuel j f args else Failed args
  end.
Lemma body_obj fuel m f args : body look (S fuel) (JObj m) f args =
  match f with
  | [] => Failed args
  | c :: f =>
      if c =? 125 then Made (JObj m) f args
      else
        match key c args with
        | Wrong => Undef
        | Fails => Failed args
        | Val k args =>
            match f with
            | a :: c :: f =>
                if negb (a =? 58) then Failed args
                else
                  match value fuel c f args with
                  | Made v f args => match k with JStr s => next fuel (JObj (obj_update look m s v)) 125 f args | _ => Failed args end
                  | x => x
                  end
            | _ => Failed args
            end
        end
  end.
Proof. reflexivity. Qed.
Lemma body_arr fuel l f args : body look (S fuel) (JArr l) f args =
  match f with
  | [] => Failed args
  | c :: f =>
      if c =? 93 then Made (JArr l) f args
      else
        match value fuel c f args with
        | Made v f args => next fuel (JArr (l ++ [v])) 93 f args
        | x => x
        end
  end.
Proof. reflexivity. Qed.

(** ** Formats are followed *)
Lemma says_ok lax :
  (forall v t a, says lax v t a -> exists c t', t = c :: t' /\ c <> 93 /\ c <> 125 /\ forall fuel f args, (length t' <= fuel)%nat -> value fuel c (t' ++ f) (a ++ args) = Made v f args) /\
  (forall m0 m t a, object lax m0 m t a -> forall fuel f args, NoDup (map fst m0) -> (length t <= fuel)%nat -> body look fuel (JObj m0) (t ++ f) (a ++ args) = Made (JObj m) f args) /\
  (forall m0 m t a, members lax m0 m t a -> forall fuel f args, NoDup (map fst m0) -> (length t <= fuel)%nat -> body look fuel (JObj m0) (t ++ f) (a ++ args) = Made (JObj m) f args) /\
  (forall l0 l t a, array lax l0 l t a -> forall fuel f args, (length t <= fuel)%nat -> body look fuel (JArr l0) (t ++ f) (a ++ args) = Made (JArr l) f args) /\
  (forall l0 l t a, elements lax l0 l t a -> forall fuel f args, (length t <= fuel)%nat -> body look fuel (JArr l0) (t ++ f) (a ++ args) = Made (JArr l) f args).
Proof.
  apply says_all.
  - intros c a v L. exists c, []. destruct (letter_leaf c a v [] L) as (_ & N1 & N2 & N3 & N4). split; [reflexivity|]. split; [exact N3|]. split; [exact N4|]. intros fuel f args _. unfold value.
    apply N.eqb_neq in N1, N2. rewrite N1, N2. destruct (letter_leaf c a v args L) as (-> & _). reflexivity.
  - intros m t a _ IH. exists 123, t. split; [reflexivity|]. split; [discriminate|]. split; [discriminate|]. intros fuel f args L. change (value fuel 123 (t ++ f) (a ++ args)) with (body look fuel (JObj []) (t ++ f) (a ++ args)). apply IH; [constructor|exact L].
  - intros l t a _ IH. exists 91, t. split; [reflexivity|]. split; [discriminate|]. split; [discriminate|]. intros fuel f args L. change (value fuel 91 (t ++ f) (a ++ args)) with (body look fuel (JArr []) (t ++ f) (a ++ args)). now apply IH.
  - intros m0 fuel f args D L. destruct fuel as [|fuel]; [cbn [length] in L; lia|]. reflexivity.
  - intros m0 m t a _ IH. exact IH.
  - intros m0 c ka k v t a K _ (c' & t' & -> & N1 & N2 & IH) fuel f args D L. cbn [length app] in L. rewrite app_length in L. cbn [length] in L. destruct fuel as [|fuel]; [lia|].
    cbn [app]. rewrite body_obj. destruct (key_letter_key c ka k (a ++ args) K) as [E1 E2]. apply N.eqb_neq in E2. rewrite E2, <- app_assoc, E1. cbn [N.eqb Pos.eqb negb]. rewrite <- app_assoc, IH by lia. cbn [app next N.eqb Pos.eqb].
    now rewrite update_put.
  - intros m0 c ka k v t a _ K _ (c' & t' & -> & N1 & N2 & IH) fuel f args D L. cbn [length app] in L. rewrite app_length in L. cbn [length] in L. destruct fuel as [|fuel]; [lia|].
    cbn [app]. rewrite body_obj. destruct (key_letter_key c ka k (a ++ args) K) as [E1 E2]. apply N.eqb_neq in E2. rewrite E2, <- app_assoc, E1. cbn [N.eqb Pos.eqb negb]. rewrite <- app_assoc, IH by lia. cbn [app next N.eqb Pos.eqb].
    rewrite update_put by exact D. destruct fuel as [|fuel]; [lia|]. reflexivity.
  - intros m0 c ka k v t a m t2 a2 K _ (c' & t' & -> & N1 & N2 & IH) _ IH2 fuel f args D L. cbn [length app] in L. rewrite app_length in L. cbn [length] in L. destruct fuel as [|fuel]; [lia|].
    cbn [app]. rewrite body_obj. destruct (key_letter_key c ka k (a ++ a2 ++ args) K) as [E1 E2]. apply N.eqb_neq in E2. rewrite E2, <- !app_assoc, E1. cbn [N.eqb Pos.eqb negb]. rewrite IH by lia. cbn [app next N.eqb Pos.eqb].
    rewrite update_put by exact D. apply IH2; [now apply put_once|lia].
  - intros l0 fuel f args L. destruct fuel as [|fuel]; [cbn [length] in L; lia|]. reflexivity.
  - intros l0 l t a _ IH. exact IH.
  - intros l0 v t a _ (c & t' & -> & N1 & N2 & IH) fuel f args L. cbn [length app] in L. rewrite app_length in L. cbn [length] in L. destruct fuel as [|fuel]; [lia|].
    cbn [app]. rewrite body_arr. apply N.eqb_neq in N1. rewrite N1, <- app_assoc, IH by lia. reflexivity.
  - intros l0 v t a _ _ (c & t' & -> & N1 & N2 & IH) fuel f args L. cbn [length app] in L. rewrite app_length in L. cbn [length] in L. destruct fuel as [|fuel]; [lia|].
    cbn [app]. rewrite body_arr. apply N.eqb_neq in N1. rewrite N1, <- app_assoc, IH by lia. destruct fuel as [|fuel]; [lia|]. reflexivity.
  - intros l0 v t a l t2 a2 _ (c & t' & -> & N1 & N2 & IH) _ IH2 fuel f args L. cbn [length app] in L. rewrite app_length in L. cbn [length] in L. destruct fuel as [|fuel]; [lia|].
    cbn [app]. rewrite body_arr. apply N.eqb_neq in N1. rewrite N1, <- !app_assoc, IH by lia. cbn [app next N.eqb Pos.eqb]. apply IH2. lia.
Qed.

(** ** Only they are *)
Lemma body_only : forall fuel,
  (forall m f args j f' r, NoDup (map fst m) -> body look fuel (JObj m) f args = Made j f' r -> exists m' t a, j = JObj m' /\ f = t ++ f' /\ args = a ++ r /\ object true m m' t a) /\
  (forall l f args j f' r, body look fuel (JArr l) f args = Made j f' r -> exists l' t a, j = JArr l' /\ f = t ++ f' /\ args = a ++ r /\ array true l l' t a).
Proof.
  induction fuel as [|fuel [IHo IHa]]; [split; discriminate|].
  assert (V : forall c f args v f' r, value fuel c f args = Made v f' r -> exists t a, c :: f = t ++ f' /\ args = a ++ r /\ says true v t a).
  { intros c f args v f' r E. unfold value in E. destruct (N.eqb_spec c 123) as [->|N1].
    - destruct (IHo [] f args v f' r ltac:(constructor) E) as (m' & t & a & -> & -> & -> & O). exists (123 :: t), a. split; [reflexivity|]. split; [reflexivity|]. now constructor.
    - destruct (N.eqb_spec c 91) as [->|N2].
      + destruct (IHa [] f args v f' r E) as (l' & t & a & -> & -> & -> & O). exists (91 :: t), a. split; [reflexivity|]. split; [reflexivity|]. now constructor.
      + destruct (leaf c args) as [v0 r0| |] eqn:L; try discriminate. injection E as -> -> ->. destruct (leaf_letter c args v r L) as (a & -> & L2). exists [c], a. split; [reflexivity|]. split; [reflexivity|]. now constructor. }
  split.
  - intros m f args j f' r D E. rewrite body_obj in E. destruct f as [|c f]; [discriminate|]. destruct (N.eqb_spec c 125) as [->|N1].
    { injection E as <- <- <-. exists m, [125], []. split; [reflexivity|]. split; [reflexivity|]. split; [reflexivity|]. constructor. }
    destruct (key c args) as [k r1| |] eqn:K; try discriminate. destruct f as [|s [|c2 f]]; try discriminate. destruct (N.eqb_spec s 58) as [->|N2]; [|discriminate]. cbn [negb] in E.
    destruct (value fuel c2 f r1) as [v f2 r2|r2| |] eqn:E2; try discriminate. destruct k as [| | |k| | | |]; try discriminate.
    destruct (V _ _ _ _ _ _ E2) as (t & a & T1 & -> & S1). destruct (key_key_letter _ _ _ _ K) as (ka & -> & K2). rewrite update_put in E by exact D.
    unfold next in E. destruct f2 as [|e f2]; [discriminate|]. destruct (N.eqb_spec e 125) as [->|N3].
    + injection E as <- <- <-. exists (put k v m), (c :: 58 :: t ++ [125]), (ka ++ a). split; [reflexivity|]. split; [rewrite T1; cbn [app]; now rewrite <- app_assoc|]. split; [now rewrite app_assoc|]. apply o_members. now constructor.
    + destruct (N.eqb_spec e 44) as [->|N4]; [|discriminate]. destruct (IHo _ _ _ _ _ _ (put_once m k v D) E) as (m' & t' & a' & -> & -> & -> & O). inversion O as [m1|m1 m2 t2 a2 O2]; subst.
      * exists (put k v m), (c :: 58 :: t ++ [44; 125]), (ka ++ a). cbn [app]. split; [reflexivity|]. split; [rewrite T1; now rewrite <- app_assoc|]. split; [now rewrite app_assoc|]. apply o_members. now apply m_comma.
      * exists m', (c :: 58 :: t ++ 44 :: t'), (ka ++ a ++ a'). cbn [app]. split; [reflexivity|]. split; [rewrite T1; now rewrite <- app_assoc|]. split; [now rewrite !app_assoc|]. apply o_members. eapply m_more; eauto.
  - intros l f args j f' r E. rewrite body_arr in E. destruct f as [|c f]; [discriminate|]. destruct (N.eqb_spec c 93) as [->|N1].
    { injection E as <- <- <-. exists l, [93], []. split; [reflexivity|]. split; [reflexivity|]. split; [reflexivity|]. constructor. }
    destruct (value fuel c f args) as [v f2 r2|r2| |] eqn:E2; try discriminate. destruct (V _ _ _ _ _ _ E2) as (t & a & T1 & -> & S1).
    unfold next in E. destruct f2 as [|e f2]; [discriminate|]. destruct (N.eqb_spec e 93) as [->|N3].
    + injection E as <- <- <-. exists (l ++ [v]), (t ++ [93]), a. split; [reflexivity|]. split; [rewrite T1; now rewrite <- app_assoc|]. split; [reflexivity|]. apply a_elements. now constructor.
    + destruct (N.eqb_spec e 44) as [->|N4]; [|discriminate]. destruct (IHa _ _ _ _ _ _ E) as (l' & t' & a' & -> & -> & -> & O). inversion O as [l1|l1 l2 t2 a2 O2]; subst.
      * exists (l ++ [v]), (t ++ [44; 93]), a. split; [reflexivity|]. split; [rewrite T1; now rewrite <- app_assoc|]. split; [reflexivity|]. apply a_elements. now apply e_comma.
      * exists l', (t ++ 44 :: t'), (a ++ a'). split; [reflexivity|]. split; [rewrite T1; now rewrite <- app_assoc|]. split; [now rewrite app_assoc|]. apply a_elements. eapply e_more; eauto.
Qed.

(** ** The end of the format is not passed *)
Lemma body_total : forall fuel,
  (forall j f args, (length f < fuel)%nat -> match body look fuel j f args with NoFuel => False | Made _ f' _ => (length f' < length f)%nat | _ => True end).
Proof.
  induction fuel as [|fuel IH]; intros j f args L; [lia|].
  assert (V : forall c f args, (length f < fuel)%nat -> match value fuel c f args with NoFuel => False | Made _ f' _ => (length f' <= length f)%nat | _ => True end).
  { clear - IH. intros c f args L. unfold value. destruct (c =? 123); [specialize (IH (JObj []) f args L); destruct (body look fuel (JObj []) f args); auto; lia|].
    destruct (c =? 91); [specialize (IH (JArr []) f args L); destruct (body look fuel (JArr []) f args); auto; lia|]. destruct (leaf c args); auto. }
  assert (X : forall j close f args, (length f <= fuel)%nat -> match next fuel j close f args with NoFuel => False | Made _ f' _ => (length f' < length f)%nat | _ => True end).
  { clear - IH. intros j close f args L. unfold next. destruct f as [|c f]; [exact I|]. cbn [length] in *. destruct (c =? close); [lia|]. destruct (c =? 44); [|exact I].
    specialize (IH j f args ltac:(lia)). destruct (body look fuel j f args); auto; lia. }
  destruct j as [|m|l| | | | |]; try exact I.
  - rewrite body_obj. destruct f as [|c f]; [exact I|]. cbn [length] in *. destruct (c =? 125); [lia|]. destruct (key c args) as [k r1| |]; auto. destruct f as [|s [|c2 f]]; auto. cbn [length] in *. destruct (negb (s =? 58)); [exact I|].
    specialize (V c2 f r1 ltac:(lia)). destruct (value fuel c2 f r1) as [v f2 r2|r2| |]; auto. destruct k as [| | |k| | | |]; auto. specialize (X (JObj (obj_update look m k v)) 125 f2 r2 ltac:(lia)).
    destruct (next fuel (JObj (obj_update look m k v)) 125 f2 r2); auto. lia.
  - rewrite body_arr. destruct f as [|c f]; [exact I|]. cbn [length] in *. destruct (c =? 93); [lia|]. specialize (V c f args ltac:(lia)). destruct (value fuel c f args) as [v f2 r2|r2| |]; auto.
    specialize (X (JArr (l ++ [v])) 93 f2 r2 ltac:(lia)). destruct (next fuel (JArr (l ++ [v])) 93 f2 r2); auto. lia.
Qed.
End Look.

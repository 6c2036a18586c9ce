(** The matcher on sequences of atoms. *)
Require Import List Arith NArith ZArith Lia Bool.
Require Import ZifyBool ZifyNat ZifyN.
Require Import Verif.Base Verif.RegexpModel Verif.RegexpSpec.
Import ListNotations.
Open Scope N_scope.

(** ** Single characters of an expression *)
Lemma not_special c : special c = false ->
  (c =? 92) = false /\ (c =? 123) = false /\ (c =? 125) = false /\ (c =? 40) = false /\ (c =? 41) = false /\
  (c =? 91) = false /\ (c =? 93) = false /\ (c =? 94) = false /\ (c =? 42) = false /\ (c =? 36) = false /\
  (c =? 46) = false /\ (c =? 63) = false /\ (c =? 43) = false /\ (c =? 45) = false /\ (c =? 124) = false.
Proof. unfold special. cbn [existsb]. rewrite !orb_false_iff. tauto. Qed.

Lemma unescaped_plain sq c : special c = false -> unescaped sq c = schar c.
Proof.
  intros S. apply not_special in S. destruct S as (H1&H2&H3&H4&H5&H6&H7&H8&H9&H10&H11&H12&H13&H14&H15).
  unfold unescaped. rewrite H2,H3,H4,H5,H6,H7,H8,H9,H10,H11,H12,H13,H14,H15. reflexivity.
Qed.
Lemma escaped_special c : special c = true -> escaped c = schar c.
Proof.
  unfold special. cbn [existsb]. rewrite !orb_true_iff, !N.eqb_eq. intros S.
  decompose [or] S; try subst; try reflexivity. discriminate.
Qed.
Lemma schar_small c : c < 128 -> schar c = Z.of_N c.
Proof. intros H. unfold schar. replace (c <? 128) with true by lia. reflexivity. Qed.

Lemma get_quote f c w : c < 128 -> get_char f (quote c ++ w) = Z.of_N c.
Proof.
  intros H. unfold quote. destruct (special c) eqn:E; cbn [app get_char].
  - rewrite escaped_special by exact E. apply schar_small; exact H.
  - pose proof (not_special _ E) as (E1 & _). rewrite E1, unescaped_plain by exact E. apply schar_small; exact H.
Qed.
Lemma next_quote c w : next (quote c ++ w) = w.
Proof.
  unfold quote, next. destruct (special c) eqn:E; cbn [app get_length].
  - destruct w; reflexivity.
  - pose proof (not_special _ E) as (E1 & _). destruct w; [reflexivity|]. rewrite E1. reflexivity.
Qed.
Lemma quote_nonempty c : quote c <> [].
Proof. unfold quote. destruct (special c); discriminate. Qed.
Lemma next_plain b w : (b =? 92) = false -> next (b :: w) = w.
Proof. intros E. unfold next. cbn [get_length]. destruct w; [reflexivity|]. rewrite E. reflexivity. Qed.
Lemma next_escape b w : next (92 :: b :: w) = w.
Proof. unfold next. cbn [get_length N.eqb Pos.eqb skipn]. reflexivity. Qed.
Lemma get_plain f b w : (b =? 92) = false -> get_char f (b :: w) = unescaped (f_square f) b.
Proof. intros E. cbn [get_char]. rewrite E. reflexivity. Qed.
Definition kind_code (k : kind) (inside : bool) : Z :=
  match k, inside with
  | Digit, true => NUM | Digit, false => NOT_NUM
  | Letter, true => ALPHA | Letter, false => NOT_ALPHA
  | Space, true => WHITESPACE | Space, false => NOT_WHITESPACE
  end.
Lemma get_kind f k i w : get_char f (92 :: kind_letter k i :: w) = kind_code k i.
Proof. destruct k, i; reflexivity. Qed.

Lemma before_app (u w : list N) : before (u ++ w) w = u.
Proof. unfold before. rewrite app_length. replace (length u + length w - length w)%nat with (length u) by lia. rewrite firstn_app, firstn_all, Nat.sub_diag. cbn. apply app_nil_r. Qed.
Lemma before_nil (u : list N) : before u [] = u.
Proof. rewrite <- (app_nil_r u) at 1. apply before_app. Qed.

(** ** What may follow an atom without changing its meaning *)
Definition inert (f : flags) (w : list N) : Prop :=
  w = [] \/
  let c := get_char f w in
  c <> STAR /\ c <> QUES /\ c <> PLUS /\ c <> LBRACE /\ c <> OR /\ (f_square f = true -> c <> SUB).

Lemma repeated_inert here n f a w text m : inert f w -> repeated here n f a w text m = Some None.
Proof.
  intros [->|H]; [reflexivity|]. cbv zeta in H. unfold repeated. destruct w as [|b w]; [reflexivity|].
  destruct H as (H1 & H2 & H3 & H4 & _).
  replace (get_char f (b :: w) =? STAR)%Z with false by lia.
  replace (get_char f (b :: w) =? PLUS)%Z with false by lia.
  replace (get_char f (b :: w) =? QUES)%Z with false by lia.
  replace (get_char f (b :: w) =? LBRACE)%Z with false by lia. reflexivity.
Qed.

(** The part of the expression behind the first operand. *)
Definition past (f : flags) (rexp : list N) : list N :=
  let c := get_char f rexp in
  if (c =? LSQUAR)%Z then behind_close f LSQUAR RSQUAR rexp
  else if (c =? LPAR)%Z then behind_close f LPAR RPAR rexp
  else next rexp.
Lemma process_or_inert here n f rexp text m :
  inert f (past f rexp) -> process_or here (S n) f false false 0 rexp text m = Some (0%Z, rexp, text, m).
Proof.
  intros H. unfold past in H. cbn [process_or].
  rewrite andb_false_r. cbn [andb].
  set (l := if (get_char f rexp =? LSQUAR)%Z then _ else _) in *. clearbody l.
  destruct l as [|b w].
  - reflexivity.
  - destruct H as [H|H]; [discriminate|]. cbv zeta in H. destruct H as (H1 & H2 & H3 & H4 & H5 & H6).
    replace (get_char f (b :: w) =? STAR)%Z with false by lia.
    replace (get_char f (b :: w) =? PLUS)%Z with false by lia.
    replace (get_char f (b :: w) =? QUES)%Z with false by lia.
    replace (get_char f (b :: w) =? LBRACE)%Z with false by lia. cbn [orb].
    replace (f_square f && (get_char f (b :: w) =? SUB)%Z) with false by (destruct (f_square f); [specialize (H6 eq_refl)|]; cbn [andb]; lia).
    replace (get_char f (b :: w) =? OR)%Z with false by lia. reflexivity.
Qed.

(** ** Sets *)
(** A piece of an expression whose characters are no square brackets. *)
Inductive quiet (f : flags) : list N -> Prop :=
| quiet_nil : quiet f []
| quiet_char p q : (forall w, get_char f (p ++ w) <> LSQUAR /\ get_char f (p ++ w) <> RSQUAR /\ next (p ++ w) = w) ->
    p <> [] -> quiet f q -> quiet f (p ++ q).
Lemma quiet_app f p q : quiet f p -> quiet f q -> quiet f (p ++ q).
Proof. induction 1; intros Hq; [exact Hq|]. rewrite <- app_assoc. constructor; auto. Qed.
Lemma quiet_one f p : (forall w, get_char f (p ++ w) <> LSQUAR /\ get_char f (p ++ w) <> RSQUAR /\ next (p ++ w) = w) -> p <> [] -> quiet f p.
Proof. intros H1 H2. rewrite <- (app_nil_r p). constructor; auto. constructor. Qed.
Lemma quiet_quote f c : c < 128 -> quiet f (quote c).
Proof.
  intros H. apply quiet_one; [|apply quote_nonempty]. intros w. rewrite get_quote by exact H.
  rewrite next_quote. unfold LSQUAR, RSQUAR. repeat split; lia.
Qed.
Lemma quiet_kind f k i : quiet f [92; kind_letter k i].
Proof.
  apply quiet_one; [|discriminate]. intros w. cbn [app]. rewrite get_kind, next_escape.
  destruct k, i; unfold kind_code; repeat split; discriminate.
Qed.
Lemma quiet_minus f : quiet f [45].
Proof.
  apply quiet_one; [|discriminate]. intros w. cbn [app]. rewrite get_plain by reflexivity. rewrite next_plain by reflexivity.
  destruct (f_square f); repeat split; discriminate.
Qed.
Lemma quiet_caret f : quiet f [94].
Proof.
  apply quiet_one; [|discriminate]. intros w. cbn [app]. rewrite get_plain by reflexivity. rewrite next_plain by reflexivity.
  repeat split; discriminate.
Qed.
Lemma quiet_member f x : mwf x -> quiet f (mwritten x).
Proof.
  destruct x as [c|a z|k i]; cbn [mwf mwritten]; intros H.
  - apply quiet_quote; exact H.
  - apply quiet_app; [apply quiet_quote; tauto|]. apply quiet_app; [apply quiet_minus|apply quiet_quote; tauto].
  - apply quiet_kind.
Qed.
Lemma quiet_members f ms : Forall mwf ms -> quiet f (concat (map mwritten ms)).
Proof. induction 1; cbn [map concat]; [constructor|]. apply quiet_app; auto. apply quiet_member; auto. Qed.
Lemma length_nonempty (p : list N) : p <> [] -> (1 <= length p)%nat.
Proof. destruct p; [congruence|cbn; lia]. Qed.
Lemma find_close_quiet f p w : quiet f p -> forall n,
  (length p < n)%nat -> find_close n f LSQUAR RSQUAR 1 (p ++ 93 :: w) = Some (93 :: w).
Proof.
  induction 1 as [|p q Hp Hne Hq IH]; intros n Hn.
  - destruct n as [|n]; [cbn in Hn; lia|]. cbn [app find_close]. rewrite get_plain by reflexivity.
    reflexivity.
  - rewrite app_length in Hn. pose proof (length_nonempty p Hne).
    destruct n as [|n]; [lia|]. rewrite <- app_assoc. cbn [find_close].
    destruct (Hp (q ++ 93 :: w)) as (H1 & H2 & H3).
    destruct (p ++ q ++ 93 :: w) as [|b r] eqn:E; [destruct p; [congruence|discriminate]|]. 
    replace (get_char f (b :: r) =? LSQUAR)%Z with false by lia.
    replace (get_char f (b :: r) =? RSQUAR)%Z with false by lia.
    rewrite H3. apply IH. lia.
Qed.

Definition inside_text (inside : bool) (ms : list member) : list N := (if inside then [] else [94]) ++ concat (map mwritten ms).
Lemma written_set inside ms : written (Set_of inside ms) = 91 :: inside_text inside ms ++ [93].
Proof. unfold inside_text. cbn [written app]. rewrite app_assoc. reflexivity. Qed.
Lemma quiet_inside f inside ms : Forall mwf ms -> quiet f (inside_text inside ms).
Proof. intros H. apply quiet_app; [destruct inside; [constructor|apply quiet_caret]|apply quiet_members; exact H]. Qed.
Lemma find_set f inside ms w : Forall mwf ms ->
  find_close (length (written (Set_of inside ms) ++ w)) f LSQUAR RSQUAR 0 (written (Set_of inside ms) ++ w) = Some (93 :: w).
Proof.
  intros H. rewrite written_set. cbn [app length]. cbn [find_close]. rewrite get_plain by reflexivity.
  change (unescaped (f_square f) 91) with LSQUAR. cbn [Z.eqb LSQUAR RSQUAR Pos.eqb Z.add].
  rewrite next_plain by reflexivity. rewrite <- app_assoc. cbn [app]. apply find_close_quiet; [apply quiet_inside; exact H|].
  rewrite app_length. cbn [length]. lia.
Qed.

Lemma get_set f inside ms w : get_char f (written (Set_of inside ms) ++ w) = LSQUAR.
Proof. rewrite written_set. cbn [app]. rewrite get_plain; reflexivity. Qed.

(** The first operand of an expression that starts with an atom. *)
Lemma get_bounds f a w : wf a ->
  match a with
  | Lit c => get_char f (written a ++ w) = Z.of_N c /\ c < 128
  | Any => get_char f (written a ++ w) = DOT
  | Class k i => get_char f (written a ++ w) = kind_code k i
  | Set_of _ _ => get_char f (written a ++ w) = LSQUAR
  end.
Proof.
  destruct a as [c| |k i|i ms]; cbn [wf]; intros H.
  - split; [apply get_quote; exact H|exact H].
  - cbn [written app]. rewrite get_plain; reflexivity.
  - cbn [written app]. apply get_kind.
  - apply get_set.
Qed.
Lemma past_atom f a w : wf a -> past f (written a ++ w) = w.
Proof.
  intros H. pose proof (get_bounds f a w H) as B. unfold past.
  destruct a as [c| |k i|i ms]; cbv zeta.
  - destruct B as [-> B]. replace (Z.of_N c =? LSQUAR)%Z with false by (unfold LSQUAR; lia).
    replace (Z.of_N c =? LPAR)%Z with false by (unfold LPAR; lia). apply next_quote.
  - rewrite B. cbn [Z.eqb DOT LSQUAR LPAR Pos.eqb]. apply next_plain. reflexivity.
  - rewrite B. replace (kind_code k i =? LSQUAR)%Z with false by (destruct k, i; reflexivity).
    replace (kind_code k i =? LPAR)%Z with false by (destruct k, i; reflexivity). apply next_escape.
  - rewrite B. cbn [Z.eqb LSQUAR Pos.eqb]. unfold behind_close. rewrite find_set by apply H. apply next_plain. reflexivity.
Qed.
Lemma operand_atom f a w : wf a -> operand f (written a ++ w) = Some w.
Proof.
  intros H. pose proof (get_bounds f a w H) as B. unfold operand.
  destruct a as [c| |k i|i ms]; cbv zeta.
  - destruct B as [-> B]. replace (Z.of_N c =? LSQUAR)%Z with false by (unfold LSQUAR; lia).
    replace (Z.of_N c =? LPAR)%Z with false by (unfold LPAR; lia). cbn [written]. rewrite next_quote. reflexivity.
  - rewrite B. cbn [Z.eqb DOT LSQUAR LPAR Pos.eqb written app]. rewrite next_plain by reflexivity. reflexivity.
  - rewrite B. replace (kind_code k i =? LSQUAR)%Z with false by (destruct k, i; reflexivity).
    replace (kind_code k i =? LPAR)%Z with false by (destruct k, i; reflexivity). cbn [written app]. rewrite next_escape. reflexivity.
  - rewrite B. cbn [Z.eqb LSQUAR LPAR Pos.eqb]. rewrite find_set by apply H. cbn [option_map]. rewrite next_plain by reflexivity. reflexivity.
Qed.
Lemma written_nonempty a : written a <> [].
Proof. destruct a; cbn [written]; try discriminate. apply quote_nonempty. Qed.

(** ** Classes *)
Lemma class_kind k i b : b < 256 -> exists p, class (kind_code k i) = Some p /\ p (schar b) = Bool.eqb (in_kind k b) i.
Proof.
  intros H. unfold schar.
  assert (E1 : forall x, Bool.eqb x true = x) by (intros []; reflexivity).
  assert (E2 : forall x, Bool.eqb x false = negb x) by (intros []; reflexivity).
  destruct k, i; eexists; (split; [reflexivity|]); rewrite ?E1, ?E2; cbv beta;
    unfold in_kind, isdigit, isalpha, iswhitespace; destruct (N.ltb_spec b 128); lia.
Qed.
Lemma class_plain c : c < 128 -> class (Z.of_N c) = None.
Proof.
  intros H. unfold class, NUM, NOT_NUM, ALPHA, NOT_ALPHA, WHITESPACE, NOT_WHITESPACE, DOT.
  repeat match goal with |- (if ?x then _ else _) = _ => replace x with false by lia end. reflexivity.
Qed.

(** A plain character of the expression. *)
Lemma simple_char here n f c regexp after t text m : c < 128 -> f_special f = false ->
  simple here n f (Z.of_N c) regexp after (t :: text) m =
  if t =? c then here f (next regexp) text m else Some (None, m).
Proof.
  intros H Hs. unfold simple. replace (Z.of_N c =? LSQUAR)%Z with false by (unfold LSQUAR; lia).
  replace (Z.of_N c =? LPAR)%Z with false by (unfold LPAR; lia). rewrite Hs.
  replace (Z.of_N c =? Z.of_N t)%Z with (t =? c) by lia. reflexivity.
Qed.

(** ** The members of a set *)
Lemma inert_range f z : f_square f = true -> z < 128 -> past f ([45] ++ quote z) = quote z.
Proof.
  intros Hf Hz. unfold past. cbn [app]. rewrite get_plain by reflexivity. rewrite Hf.
  change (unescaped true 45) with SUB. cbn [Z.eqb SUB LSQUAR LPAR Pos.eqb]. apply next_plain. reflexivity.
Qed.
Lemma process_range here n a z text m : a < 128 -> z < 128 ->
  process_or here (S n) F_square false false 0 (quote a ++ [45] ++ quote z) text m =
  Some (0%Z, quote a ++ [45] ++ quote z, text, m).
Proof.
  intros Ha Hz. cbn [process_or]. rewrite andb_false_r. cbn [andb]. rewrite get_quote by exact Ha.
  replace (Z.of_N a =? LSQUAR)%Z with false by (unfold LSQUAR; lia).
  replace (Z.of_N a =? LPAR)%Z with false by (unfold LPAR; lia). rewrite next_quote.
  cbn [app]. rewrite (get_plain F_square 45) by reflexivity. change (unescaped (f_square F_square) 45) with SUB.
  cbn [Z.eqb SUB STAR QUES PLUS LBRACE orb Pos.eqb F_square f_square andb].
  rewrite next_plain by reflexivity. pose proof (next_quote z []) as Q. rewrite app_nil_r in Q. rewrite Q. reflexivity.
Qed.

Lemma member_step here n x t text m : mwf x -> t < 256 ->
  here_step here (S n) F_square (mwritten x) (t :: text) m =
  match x with
  | Range _ _ => Some (if maccepts x t then Some text else None, m)
  | _ => if maccepts x t then here F_square [] text m else Some (None, m)
  end.
Proof.
  intros H Ht. destruct x as [c|a z|k i]; cbn [mwf mwritten maccepts] in *.
  - (* One *)
    pose proof (get_quote F_square c [] H) as G. rewrite app_nil_r in G.
    pose proof (next_quote c []) as X. rewrite app_nil_r in X.
    pose proof (past_atom F_square (Lit c) [] H) as P. cbn [written] in P. rewrite app_nil_r in P.
    pose proof (operand_atom F_square (Lit c) [] H) as O. cbn [written] in O. rewrite app_nil_r in O.
    pose proof (quote_nonempty c) as NE.
    unfold here_step. destruct (quote c) as [|b r] eqn:E; [congruence|]. rewrite G.
    cbn [f_special f_or F_square]. rewrite process_or_inert by (rewrite P; left; reflexivity). cbn [obind].
    cbn [Z.ltb Z.compare]. rewrite O.
    replace ((Z.of_N c =? LPAR) || (Z.of_N c =? LSQUAR))%Z with false by (unfold LPAR, LSQUAR; lia). cbn [andb].
    rewrite repeated_inert by (left; reflexivity). cbn [obind].
    replace (Z.of_N c =? XOR)%Z with false by (unfold XOR; lia). cbn [andb].
    replace (Z.of_N c =? DOLL)%Z with false by (unfold DOLL; lia).
    rewrite X. unfold in_range. cbn [without_new f_square F_square length Nat.ltb Nat.leb andb].
    rewrite class_plain by exact H. change (mkF true (f_or (mkF true false false false)) false (f_special (mkF true false false false))) with F_square.
    rewrite simple_char by (auto; reflexivity). rewrite X. reflexivity.
  - (* Range *)
    destruct H as [Ha Hz].
    pose proof (get_quote F_square a ([45] ++ quote z) Ha) as G.
    pose proof (next_quote a ([45] ++ quote z)) as X.
    pose proof (operand_atom F_square (Lit a) ([45] ++ quote z) Ha) as O. cbn [written] in O.
    pose proof (process_range here n a z (t :: text) m Ha Hz) as PR.
    unfold here_step. destruct (quote a ++ [45] ++ quote z) as [|b r] eqn:E.
    { pose proof (quote_nonempty a). destruct (quote a); [congruence|discriminate]. }
    rewrite G. cbn [f_special f_or F_square]. change (mkF true false false false) with F_square in *. rewrite PR. cbn [obind Z.ltb Z.compare]. rewrite O.
    replace ((Z.of_N a =? LPAR) || (Z.of_N a =? LSQUAR))%Z with false by (unfold LPAR, LSQUAR; lia). cbn [andb].
    unfold repeated. cbn [app]. rewrite (get_plain F_square 45) by reflexivity. change (unescaped (f_square F_square) 45) with SUB.
    cbn [Z.eqb SUB STAR QUES PLUS LBRACE Pos.eqb obind].
    replace (Z.of_N a =? XOR)%Z with false by (unfold XOR; lia). cbn [andb].
    replace (Z.of_N a =? DOLL)%Z with false by (unfold DOLL; lia).
    rewrite X. unfold in_range. cbn [app].
    rewrite (get_plain (without_new F_square) 45) by reflexivity.
    change (unescaped (f_square (without_new F_square)) 45) with SUB.
    cbn [without_new f_square F_square Z.eqb SUB Pos.eqb andb length].
    pose proof (length_nonempty _ (quote_nonempty z)). replace (1 <? S (length (quote z)))%nat with true by lia. cbn [andb].
    rewrite next_plain by reflexivity. pose proof (get_quote (without_new F_square) z [] Hz) as Gz. rewrite app_nil_r in Gz.
    change (mkF true (f_or (mkF true false false false)) false (f_special (mkF true false false false))) with (without_new F_square). rewrite Gz.
    cbn [tl]. replace ((Z.of_N a <=? schar t)%Z && (schar t <=? Z.of_N z)%Z) with ((a <=? t) && (t <=? z))
      by (unfold schar; destruct (N.ltb_spec t 128); lia). reflexivity.
  - (* Kind *)
    pose proof (past_atom F_square (Class k i) [] I) as P. cbn [written app] in P.
    pose proof (operand_atom F_square (Class k i) [] I) as O. cbn [written app] in O.
    unfold here_step. rewrite get_kind. cbn [f_special f_or F_square].
    rewrite process_or_inert by (rewrite P; left; reflexivity). cbn [obind Z.ltb Z.compare]. rewrite O.
    replace ((kind_code k i =? LPAR) || (kind_code k i =? LSQUAR))%Z with false by (destruct k, i; reflexivity). cbn [andb].
    rewrite repeated_inert by (left; reflexivity). cbn [obind].
    replace (kind_code k i =? XOR)%Z with false by (destruct k, i; reflexivity). cbn [andb].
    replace (kind_code k i =? DOLL)%Z with false by (destruct k, i; reflexivity).
    rewrite next_escape. unfold in_range. cbn [without_new f_square F_square length Nat.ltb Nat.leb andb].
    destruct (class_kind k i t Ht) as (p & Hp1 & Hp2). rewrite Hp1, Hp2. reflexivity.
Qed.

(** What the loop over the members needs from the matcher. *)
Definition members_ok (here : matcher) : Prop := forall x t text m, mwf x -> t < 256 ->
  here F_square (mwritten x) (t :: text) m = Some (if maccepts x t then Some text else None, m).

Lemma mwritten_nonempty x : mwritten x <> [].
Proof. destruct x; cbn [mwritten]; try discriminate; [apply quote_nonempty|]. pose proof (quote_nonempty a). destruct (quote a); [congruence|discriminate]. Qed.

Lemma not_sub_members ms w : Forall mwf ms -> get_char F_square (concat (map mwritten ms) ++ 93 :: w) <> SUB.
Proof.
  intros H. destruct H as [|x ms Hx H]; cbn [map concat app].
  - rewrite get_plain by reflexivity. discriminate.
  - destruct x as [c|a z|k i]; cbn [mwritten mwf] in *; rewrite <- ?app_assoc.
    + rewrite get_quote by exact Hx. unfold SUB. lia.
    + rewrite get_quote by apply Hx. unfold SUB. lia.
    + cbn [app]. rewrite get_kind. destruct k, i; discriminate.
Qed.

Lemma square_members here reverse ms : Forall mwf ms -> members_ok here -> forall n t text m, t < 256 ->
  (length (concat (map mwritten ms)) < n)%nat ->
  square_loop here n reverse (concat (map mwritten ms) ++ [93]) (t :: text) m =
  Some (if existsb (fun x => maccepts x t) ms then (if reverse then (false, t :: text, m) else (true, text, m))
        else (if reverse then (true, text, m) else (false, t :: text, m))).
Proof.
  intros H Hok. induction H as [|x ms Hx H IH]; intros n t text m Ht Hn.
  - destruct n as [|n]; [cbn in Hn; lia|]. cbn [map concat app square_loop existsb]. rewrite get_plain by reflexivity.
    change (unescaped (f_square F_square) 93) with RSQUAR. cbn [Z.eqb RSQUAR Pos.eqb]. destruct reverse; reflexivity.
  - cbn [map concat] in *. rewrite app_length in Hn. pose proof (length_nonempty _ (mwritten_nonempty x)).
    destruct n as [|n]; [lia|]. rewrite <- app_assoc. set (w := concat (map mwritten ms) ++ [93]) in *.
    assert (Hw : w <> []) by (unfold w; destruct (concat (map mwritten ms)); discriminate).
    assert (Hsub : get_char F_square w <> SUB) by (apply not_sub_members; exact H).
    cbn [square_loop existsb].
    destruct (mwritten x ++ w) as [|b r] eqn:E; [pose proof (mwritten_nonempty x); destruct (mwritten x); [congruence|discriminate]|].
    rewrite <- E. clear E.
    assert (T : forall reg', reg' = w ->
      (r0 <- here F_square (before (mwritten x ++ w) reg') (t :: text) m ;;
       match fst r0 with
       | Some t0 => if reverse then Some (false, t :: text, snd r0) else Some (true, t0, snd r0)
       | None => square_loop here n reverse reg' (t :: text) (snd r0)
       end) =
      Some (if maccepts x t || existsb (fun x0 => maccepts x0 t) ms
       then if reverse then (false, t :: text, m) else (true, text, m)
       else if reverse then (true, text, m) else (false, t :: text, m))).
    { intros reg' ->. rewrite before_app, Hok by auto. cbn [obind fst snd].
      destruct (maccepts x t); cbn [orb]; [destruct reverse; reflexivity|]. apply IH; [exact Ht|lia]. }
    destruct x as [c|a z|k i]; cbn [mwritten mwf] in *.
    + rewrite get_quote by exact Hx. rewrite next_quote.
      replace (Z.of_N c =? RSQUAR)%Z with false by (unfold RSQUAR; lia).
      replace (Z.of_N c =? LBRACE)%Z with false by (unfold LBRACE; lia).
      replace (Z.of_N c =? LPAR)%Z with false by (unfold LPAR; lia).
      replace (Z.of_N c =? LSQUAR)%Z with false by (unfold LSQUAR; lia). cbn [Z.eqb].
      replace (SEPARATOR <? Z.of_N c)%Z with false by (unfold SEPARATOR; lia).
      apply T. replace (get_char F_square w =? SUB)%Z with false by lia. rewrite andb_false_r. reflexivity.
    + rewrite <- !app_assoc in *. rewrite get_quote by apply Hx. rewrite next_quote.
      replace (Z.of_N a =? RSQUAR)%Z with false by (unfold RSQUAR; lia).
      replace (Z.of_N a =? LBRACE)%Z with false by (unfold LBRACE; lia).
      replace (Z.of_N a =? LPAR)%Z with false by (unfold LPAR; lia).
      replace (Z.of_N a =? LSQUAR)%Z with false by (unfold LSQUAR; lia). cbn [Z.eqb].
      replace (SEPARATOR <? Z.of_N a)%Z with false by (unfold SEPARATOR; lia).
      apply T. cbn [app]. rewrite get_plain by reflexivity. change (unescaped (f_square F_square) 45 =? SUB)%Z with true.
      rewrite andb_true_r. cbn [length]. rewrite app_length. pose proof (length_nonempty _ (quote_nonempty z)).
      replace (1 <? S (length (quote z) + length w))%nat with true by lia.
      rewrite next_plain by reflexivity. apply next_quote.
    + cbn [app]. rewrite get_kind. rewrite next_escape.
      replace (kind_code k i =? RSQUAR)%Z with false by (destruct k, i; reflexivity).
      replace (kind_code k i =? LBRACE)%Z with false by (destruct k, i; reflexivity).
      replace (kind_code k i =? LPAR)%Z with false by (destruct k, i; reflexivity).
      replace (kind_code k i =? LSQUAR)%Z with false by (destruct k, i; reflexivity). cbn [Z.eqb].
      replace (SEPARATOR <? kind_code k i)%Z with false by (destruct k, i; reflexivity).
      apply T. replace (get_char F_square w =? SUB)%Z with false by lia. rewrite andb_false_r. reflexivity.
Qed.

(** ** One atom *)
Definition top (f : flags) : Prop := f = F_none \/ f = F_new.
Lemma before_written a w : before (written a ++ w) w = written a.
Proof. apply before_app. Qed.

Lemma match_set here n inside ms t text m : Forall mwf ms -> members_ok here -> t < 256 ->
  (length (written (Set_of inside ms)) < n)%nat ->
  match_square here n (written (Set_of inside ms)) (t :: text) m =
  Some (if accepts (Set_of inside ms) t then (true, text, m) else (false, t :: text, m)).
Proof.
  intros H Hok Ht Hn. unfold match_square. rewrite written_set in *. rewrite next_plain by reflexivity.
  unfold inside_text in *. cbn [length] in Hn. rewrite !app_length in Hn. cbn [accepts].
  destruct inside.
  - cbn [app]. cbn [app length] in Hn.
    assert (E : get_char F_square (concat (map mwritten ms) ++ [93]) <> XOR).
    { destruct H as [|x ms Hx H]; cbn [map concat app].
      - rewrite get_plain by reflexivity. discriminate.
      - destruct x as [c|a z|k i]; cbn [mwritten mwf] in *; rewrite <- ?app_assoc.
        + rewrite get_quote by exact Hx. unfold XOR. lia.
        + rewrite get_quote by apply Hx. unfold XOR. lia.
        + cbn [app]. rewrite get_kind. destruct k, i; discriminate. }
    apply Z.eqb_neq in E; rewrite E.
    rewrite square_members by (auto; lia). destruct (existsb _ ms); reflexivity.
  - rewrite <- app_assoc. cbn [app]. rewrite get_plain by reflexivity. change (unescaped (f_square F_square) 94 =? XOR)%Z with true.
    cbv iota. rewrite next_plain by reflexivity. rewrite square_members by (auto; lia). destruct (existsb _ ms); reflexivity.
Qed.
Lemma match_set_nil here n inside ms m : ms <> [] -> Forall mwf ms ->
  match_square here (S n) (written (Set_of inside ms)) [] m = Some (false, [], m).
Proof.
  intros Hne H. unfold match_square. rewrite written_set in *. rewrite next_plain by reflexivity.
  unfold inside_text. destruct H as [|x ms Hx H]; [congruence|]. cbn [map concat].
  assert (forall reverse, square_loop here (S n) reverse ((mwritten x ++ concat (map mwritten ms)) ++ [93]) [] m = Some (false, [], m)) as Q.
  { intros reverse. rewrite <- app_assoc. cbn [square_loop].
    destruct (mwritten x ++ concat (map mwritten ms) ++ [93]) as [|b r] eqn:E.
    { pose proof (mwritten_nonempty x). destruct (mwritten x); [congruence|discriminate]. }
    rewrite <- E. clear E. destruct x as [c|a z|k i]; cbn [mwritten mwf] in *; rewrite <- ?app_assoc.
    - rewrite get_quote by exact Hx.
      replace (Z.of_N c =? RSQUAR)%Z with false by (unfold RSQUAR; lia).
      replace (Z.of_N c =? LBRACE)%Z with false by (unfold LBRACE; lia).
      replace (Z.of_N c =? LPAR)%Z with false by (unfold LPAR; lia).
      replace (Z.of_N c =? LSQUAR)%Z with false by (unfold LSQUAR; lia). cbn [Z.eqb].
      replace (SEPARATOR <? Z.of_N c)%Z with false by (unfold SEPARATOR; lia). reflexivity.
    - rewrite get_quote by apply Hx.
      replace (Z.of_N a =? RSQUAR)%Z with false by (unfold RSQUAR; lia).
      replace (Z.of_N a =? LBRACE)%Z with false by (unfold LBRACE; lia).
      replace (Z.of_N a =? LPAR)%Z with false by (unfold LPAR; lia).
      replace (Z.of_N a =? LSQUAR)%Z with false by (unfold LSQUAR; lia). cbn [Z.eqb].
      replace (SEPARATOR <? Z.of_N a)%Z with false by (unfold SEPARATOR; lia). reflexivity.
    - cbn [app]. rewrite get_kind. destruct k, i; reflexivity. }
  destruct inside.
  - cbn [app]. destruct (Z.eqb (get_char F_square ((mwritten x ++ concat (map mwritten ms)) ++ [93])) XOR) eqn:E; [|apply Q].
    exfalso. apply Z.eqb_eq in E. revert E. rewrite <- app_assoc. destruct x as [c|a z|k i]; cbn [mwritten mwf] in *; rewrite <- ?app_assoc.
    + rewrite get_quote by exact Hx. unfold XOR. lia.
    + rewrite get_quote by apply Hx. unfold XOR. lia.
    + cbn [app]. rewrite get_kind. destruct k, i; discriminate.
  - rewrite <- app_assoc. cbn [app]. rewrite get_plain by reflexivity. change (unescaped (f_square F_square) 94 =? XOR)%Z with true.
    cbv iota. rewrite next_plain by reflexivity. apply Q.
Qed.

(** The matcher at an atom that is followed by nothing that repeats it. *)
Lemma atom_step here n f a w text m : top f -> wf a -> inert f w -> members_ok here -> Forall (fun b => b < 256) text ->
  (length (written a) < n)%nat ->
  here_step here n f (written a ++ w) text m =
  match text with
  | [] => Some (None, m)
  | t :: rest => if accepts a t then here F_none w rest m else Some (None, m)
  end.
Proof.
  intros Hf Ha Hw Hok Hb Hn.
  pose proof (length_nonempty _ (written_nonempty a)) as L.
  destruct n as [|n]; [lia|].
  pose proof (past_atom f a w Ha) as P. pose proof (operand_atom f a w Ha) as O.
  pose proof (get_bounds f a w Ha) as G.
  assert (Fn : without_new f = F_none) by (destruct Hf; subst; reflexivity).
  assert (Fs : f_special f = false) by (destruct Hf; subst; reflexivity).
  assert (Fo : f_or f = false) by (destruct Hf; subst; reflexivity).
  unfold here_step. destruct (written a ++ w) as [|b r] eqn:E; [pose proof (written_nonempty a); destruct (written a); [congruence|discriminate]|].
  rewrite <- E in *. clear E. rewrite Fs, Fo. rewrite process_or_inert by (rewrite P; exact Hw). cbn [obind Z.ltb Z.compare].
  rewrite O, before_app.
  assert (Q : ((get_char f (written a ++ w) =? LPAR) || (get_char f (written a ++ w) =? LSQUAR))%Z &&
              (length (written a ++ w) - length w =? 2)%nat = false).
  { destruct a as [c| |k i|i ms].
    - destruct G as [-> G]. replace ((Z.of_N c =? LPAR) || (Z.of_N c =? LSQUAR))%Z with false by (unfold LPAR, LSQUAR; lia). reflexivity.
    - rewrite G. reflexivity.
    - rewrite G. destruct k, i; reflexivity.
    - rewrite app_length. destruct Ha as [Hne Hms].
      assert (3 <= length (written (Set_of i ms)))%nat.
      { rewrite written_set. cbn [length]. rewrite app_length. unfold inside_text. rewrite app_length. cbn [length].
        destruct ms as [|x ms]; [congruence|]. cbn [map concat]. rewrite app_length.
        pose proof (length_nonempty _ (mwritten_nonempty x)). lia. }
      replace (length (written (Set_of i ms)) + length w - length w =? 2)%nat with false by lia. apply andb_false_r. }
  rewrite Q. rewrite repeated_inert by exact Hw. cbn [obind]. rewrite Fn.
  assert (X : (get_char f (written a ++ w) =? XOR)%Z && f_new f = false).
  { destruct a as [c| |k i|i ms].
    - destruct G as [-> G]. replace (Z.of_N c =? XOR)%Z with false by (unfold XOR; lia). reflexivity.
    - rewrite G. reflexivity.
    - rewrite G. destruct k, i; reflexivity.
    - rewrite G. reflexivity. }
  rewrite X.
  assert (D : (get_char f (written a ++ w) =? DOLL)%Z = false).
  { destruct a as [c| |k i|i ms].
    - destruct G as [-> G]. unfold DOLL. lia.
    - rewrite G. reflexivity.
    - rewrite G. destruct k, i; reflexivity.
    - rewrite G. reflexivity. }
  rewrite D.
  replace (in_range F_none (get_char f (written a ++ w)) (next (written a ++ w)) text) with (@None bool)
    by (unfold in_range; destruct text; reflexivity).
  destruct a as [c| |k i|i ms]; cbn [wf] in Ha.
  - destruct G as [-> G]. rewrite class_plain by exact G. destruct text as [|t rest].
    + unfold simple. replace (Z.of_N c =? LSQUAR)%Z with false by (unfold LSQUAR; lia).
      replace (Z.of_N c =? LPAR)%Z with false by (unfold LPAR; lia). reflexivity.
    + rewrite simple_char by (auto; reflexivity). cbn [accepts written]. rewrite next_quote. reflexivity.
  - rewrite G. change (class DOT) with (Some (fun _ : Z => true)). destruct text as [|t rest]; [reflexivity|].
    cbn [accepts written app]. rewrite next_plain by reflexivity. reflexivity.
  - rewrite G. destruct text as [|t rest].
    + destruct (class_kind k i 0 ltac:(lia)) as (p & -> & _). unfold simple. destruct k, i; reflexivity.
    + destruct (class_kind k i t) as (p & Hp1 & Hp2); [inversion Hb; auto|]. rewrite Hp1, Hp2. cbn [accepts].
      cbn [written app]. rewrite next_escape. reflexivity.
  - rewrite G. change (class LSQUAR) with (@None (Z -> bool)). unfold simple. change (LSQUAR =? LSQUAR)%Z with true. cbv iota. rewrite before_app.
    destruct text as [|t rest].
    + rewrite match_set_nil by apply Ha. reflexivity.
    + rewrite match_set by (try apply Ha; auto; inversion Hb; auto). cbn [obind]. destruct (accepts (Set_of i ms) t); reflexivity.
Qed.

(** ** Enough fuel for the members of a set *)
Lemma here_nil n f text m : match_here (S n) f [] text m = Some (Some text, m).
Proof. reflexivity. Qed.
Lemma match_members n : (2 <= n)%nat -> members_ok (match_here n).
Proof.
  intros Hn x t text m Hx Ht. destruct n as [|[|n]]; [lia|lia|]. cbn [match_here].
  rewrite member_step by auto. destruct x; cbn [maccepts].
  - destruct (t =? c); reflexivity.
  - reflexivity.
  - destruct (Bool.eqb (in_kind k t) inside); reflexivity.
Qed.

(** ** A sequence of atoms, followed by something whose result is known *)
Definition seq (ps : list atom) : list N := concat (map written ps).
Fixpoint after_seq (ps : list atom) (tail : list N -> option (list N)) (text : list N) : option (list N) :=
  match ps with
  | [] => tail text
  | a :: ps => match text with t :: rest => if accepts a t then after_seq ps tail rest else None | [] => None end
  end.
Lemma inert_seq f ps w : top f -> Forall wf ps -> inert f w -> inert f (seq ps ++ w).
Proof.
  intros Hf H Hw. destruct H as [|a ps Ha H]; [exact Hw|]. right. unfold seq. cbn [map concat]. rewrite <- app_assoc.
  pose proof (get_bounds f a (concat (map written ps) ++ w) Ha) as G. cbv zeta.
  assert (Fq : f_square f = false) by (destruct Hf; subst; reflexivity). rewrite Fq.
  destruct a as [c| |k i|i ms].
  - destruct G as [-> G]. unfold STAR, QUES, PLUS, LBRACE, OR, SUB. repeat split; lia.
  - rewrite G. repeat split; discriminate.
  - rewrite G. destruct k, i; repeat split; discriminate.
  - rewrite G. repeat split; discriminate.
Qed.
Lemma inert_top f g w : top f -> top g -> inert f w -> inert g w.
Proof.
  intros Hf Hg [H|H]; [left; exact H|right]. cbv zeta in *.
  assert (get_char g w = get_char f w) as ->.
  { assert (f_square f = f_square g) as E by (destruct Hf, Hg; subst; reflexivity).
    unfold get_char. rewrite E. reflexivity. }
  assert (f_square g = f_square f) as -> by (destruct Hf, Hg; subst; reflexivity). exact H.
Qed.
Definition computes (w : list N) (k : nat) (tail : list N -> option (list N)) : Prop :=
  forall n f text m, top f -> Forall (fun b => b < 256) text -> (length w + length text + k <= n)%nat ->
  match_here n f w text m = Some (tail text, m).
Lemma seq_ok ps w k tail : Forall wf ps -> (3 <= k)%nat -> inert F_none w -> computes w k tail -> computes (seq ps ++ w) k (after_seq ps tail).
Proof.
  intros H Hk Hw Hc. induction H as [|a ps Ha H IH]; [exact Hc|].
  intros n f text m Hf Hb Hn. unfold seq in *. cbn [map concat] in *. rewrite <- app_assoc in *. rewrite app_length in Hn.
  pose proof (length_nonempty _ (written_nonempty a)).
  destruct n as [|n]; [lia|]. cbn [match_here].
  rewrite atom_step; auto.
  - destruct text as [|t rest]; [reflexivity|]. cbn [after_seq]. destruct (accepts a t); [|reflexivity].
    apply IH; [left; reflexivity|inversion Hb; auto|]. cbn [length] in Hn. lia.
  - apply inert_seq; auto. apply (inert_top F_none); auto. left; reflexivity.
  - apply match_members. lia.
  - lia.
Qed.

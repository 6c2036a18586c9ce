(** Properties of the regular expression matcher: C51 (repetition). *)
Require Import List Arith NArith ZArith Lia Bool.
Require Import Verif.Base Verif.RegexpModel Verif.RegexpSpec Verif.RegexpProofs Verif.RegexpRepProofs Verif.RegexpSearchProofs.
Import ListNotations.
Open Scope N_scope.

(** C51: between ^ and $ the result is 0 exactly for the texts the expression stands for, and -1 for all others; the
    last atom may be repeated.  Missing: repetition elsewhere, bounds of more than one digit, and the combinations
    refuted below. *)
Theorem regexp_whole_partial : forall ps r text fuel,
  let p := mkPat true ps r true in
  pattern_ok p -> Forall (fun b => b < 256) text -> (length (pwritten p) + length text + 5 <= fuel)%nat ->
  (lang p text -> reg_equal fuel (pwritten p) text = Some 0%Z) /\
  (~ lang p text -> reg_equal fuel (pwritten p) text = Some (-1)%Z).
Proof.
  intros ps r text fuel p H Hb Hf.
  assert (E : reg_equal fuel (pwritten p) text = Some (if result p text then 0 else -1)%Z).
  { unfold reg_equal. destruct text as [|t text]; cbn [equal_loop]; rewrite pattern_here by auto; cbn [obind fst];
      pose proof (first_byte p H) as Hfb; cbn [caret p] in Hfb.
    - destruct (result p []) as [w|] eqn:R.
      + destruct (result_some _ _ _ R) as (s & E & [[_ D] _]). rewrite (D eq_refl). reflexivity.
      + destruct (pwritten p); reflexivity.
    - destruct (result p (t :: text)) as [w|] eqn:R.
      + destruct (result_some _ _ _ R) as (s & E & [[_ D] _]). rewrite (D eq_refl). reflexivity.
      + destruct (pwritten p) as [|b w]; [discriminate Hfb|]. rewrite Hfb. reflexivity. }
  rewrite E. destruct (result p text) as [w|] eqn:R.
  - destruct (result_some _ _ _ R) as (s & Et & [[L D] _]). rewrite (D eq_refl), app_nil_r in Et. subst s. split; [reflexivity|]. intros N. elim (N L).
  - split; [|reflexivity]. intros L. exfalso. apply (result_none _ _ R text []); [rewrite app_nil_r; reflexivity|]. split; [exact L|reflexivity].
Qed.
Print Assumptions regexp_whole_partial.

(** ^a{2,3}$, ^\d+$ and ^x.*$ *)
Example whole_case :
  let p := mkPat true [] (Some (Lit 97, Between 2 3)) true in
  let q := mkPat true [] (Some (Class Digit true, Plus)) true in
  let r := mkPat true [Lit 120] (Some (Any, Star)) true in
  pattern_ok p /\ pwritten p = [94; 97; 123; 50; 44; 51; 125; 36] /\
  map (fun k => reg_equal 60 (pwritten p) (repeat 97 k)) [1; 2; 3; 4]%nat = [Some (-1)%Z; Some 0%Z; Some 0%Z; Some (-1)%Z] /\
  pattern_ok q /\ reg_equal 60 (pwritten q) [49; 50] = Some 0%Z /\ reg_equal 60 (pwritten q) [49; 97] = Some (-1)%Z /\
  pattern_ok r /\ reg_equal 60 (pwritten r) [120; 121; 250] = Some 0%Z /\ reg_equal 60 (pwritten r) [121] = Some (-1)%Z.
Proof.
  cbv zeta. repeat split; try (vm_compute; reflexivity); try lia; cbn; auto; repeat constructor.
Qed.

(** A count of several digits is read in base 11: ^a{12}$ matches 13 letters, and 12 do not match. *)
Theorem regexp_count_refuted :
  reg_equal 60 ([94; 97; 123; 49; 50; 125; 36]) (repeat 97 12) = Some (-1)%Z /\
  reg_equal 60 ([94; 97; 123; 49; 50; 125; 36]) (repeat 97 13) = Some 0%Z.
Proof. split; vm_compute; reflexivity. Qed.
Print Assumptions regexp_count_refuted.

(** a{0} stands for any number. *)
Theorem regexp_zero_refuted : reg_equal 60 [94; 97; 123; 48; 125; 98; 36] [97; 97; 98] = Some 0%Z.
Proof. vm_compute; reflexivity. Qed.
Print Assumptions regexp_zero_refuted.

(** What follows a repetition is not looked at when the text ends: ^a+b$ matches "aa", ^xa*b$ matches "x". *)
Theorem regexp_end_refuted :
  reg_equal 60 [94; 97; 43; 98; 36] [97; 97] = Some 0%Z /\ reg_equal 60 [94; 120; 97; 42; 98; 36] [120] = Some 0%Z.
Proof. split; vm_compute; reflexivity. Qed.
Print Assumptions regexp_end_refuted.

(** An expression that begins with a star behind its first operand. *)
Lemma star_first h n x y text m :
  process_or h (S n) F_new false false 0 (x ++ 42 :: y) text m = Some (0%Z, x ++ 42 :: y, text, m) ->
  operand F_new (x ++ 42 :: y) = Some (42 :: y) -> before (x ++ 42 :: y) (42 :: y) = x ->
  (Z.eqb (get_char F_new (x ++ 42 :: y)) LPAR || Z.eqb (get_char F_new (x ++ 42 :: y)) LSQUAR) &&
    Nat.eqb (length (x ++ 42 :: y) - length (42 :: y)) 2 = false ->
  here_step h (S n) F_new (x ++ 42 :: y) text m = match_star h (S n) x y text m.
Proof.
  intros H1 H2 H3 H4. unfold here_step. destruct (x ++ 42 :: y) as [|b r] eqn:E; [destruct x; discriminate|]. cbn [f_special f_or F_new].
  change (mkF false false true false) with F_new in *. rewrite H1. cbn [obind Z.ltb Z.compare]. rewrite H2, H4, H3. unfold repeated.
  change (Z.eqb (get_char F_new (42 :: y)) STAR) with true. cbv iota. rewrite next_plain by reflexivity.
  destruct (match_star h (S n) x y text m); reflexivity.
Qed.

(** An expression that begins with a repeated character is found in every text. *)
Theorem regexp_star_everywhere_refuted : forall text fuel, (8 <= fuel)%nat -> Forall (fun b => b < 256) text ->
  (forall t, In t text -> t <> 97 /\ t <> 98) -> reg_equal fuel [97; 42; 98] text = Some 0%Z.
Proof.
  intros text fuel Hf Hb Ht. do 8 (destruct fuel as [|fuel]; [lia|]). clear Hf. unfold reg_equal.
  induction text as [|t text IH]; cbn [equal_loop].
  - reflexivity.
  - assert (E : match_here (S (S (S (S (S (S (S (S fuel)))))))) F_new [97; 42; 98] (t :: text) None = Some (None, None)).
    { destruct (Ht t (or_introl eq_refl)) as (H1 & H2).
      assert (C : forall n, match_here (S n) F_special [97] (t :: text) None = Some (None, None)).
      { intros n. pose proof (special_char n (Lit 97) eq_refl eq_refl (t :: text) None) as S. cbn [written] in S.
        replace (97 =? t) with false in S by lia. exact S. }
      assert (B : match_here (S (S (S (S (S (S (S fuel))))))) F_none [98] (t :: text) None = Some (None, None)).
      { pose proof (match_atom (S (S (S (S (S (S (S fuel))))))) (Lit 98) eq_refl ltac:(cbn; lia) (t :: text) None Hb) as S.
        cbn [accepts] in S. replace (t =? 98) with false in S by lia. exact S. }
      assert (C2 : match_here (S (S (S (S (S (S (S fuel))))))) F_special [97] [170] None = Some (None, None)) by reflexivity.
      specialize (C (S (S (S (S (S (S fuel))))))).
      change (match_here (S (S (S (S (S (S (S (S fuel)))))))) F_new [97; 42; 98] (t :: text) None)
        with (here_step (match_here (S (S (S (S (S (S (S fuel)))))))) (S (S (S (S (S (S (S fuel))))))) F_new [97; 42; 98] (t :: text) None).
      revert C B C2. generalize (match_here (S (S (S (S (S (S (S fuel)))))))). intros h C B C2.
      rewrite (star_first h _ [97] [98]); [|reflexivity|reflexivity|reflexivity|reflexivity].
      unfold match_star. cbn [length Nat.ltb Nat.leb]. cbn [star_chars].
      unfold one. rewrite C. cbn [obind fst snd ok]. rewrite C2. cbn [obind fst snd ok]. rewrite B. reflexivity. }
    rewrite E. cbn [obind fst snd N.eqb Pos.eqb]. apply IH; [inversion Hb; assumption|]. intros x Hx. apply Ht. right. exact Hx.
Qed.
Print Assumptions regexp_star_everywhere_refuted.

(** No other way is tried: ^a?ab$ does not match "ab". *)
Theorem regexp_backtrack_refuted : reg_equal 60 [94; 97; 63; 97; 98; 36] [97; 98] = Some (-1)%Z.
Proof. vm_compute; reflexivity. Qed.
Print Assumptions regexp_backtrack_refuted.

(** ^a.?b$ does not match "axb". *)
Theorem regexp_dot_question_refuted : reg_equal 60 [94; 97; 46; 63; 98; 36] [97; 120; 98] = Some (-1)%Z.
Proof. vm_compute; reflexivity. Qed.
Print Assumptions regexp_dot_question_refuted.

(** Repetition of an operand of more than one byte: a\d* does not match "ab", where no digit follows; \d*x matches
    "12y", where the x is missing; ^\d{3}$ matches "1"; \d{1,3} does not match "12a". *)
Theorem regexp_long_operand_refuted :
  reg_equal 60 [97; 92; 100; 42] [97; 98] = Some (-1)%Z /\ reg_equal 60 [92; 100; 42; 120] [49; 50; 121] = Some 0%Z /\
  reg_equal 60 [94; 92; 100; 123; 51; 125; 36] [49] = Some 0%Z /\
  reg_equal 60 [92; 100; 123; 49; 44; 51; 125] [49; 50; 97] = Some (-1)%Z.
Proof. repeat split; vm_compute; reflexivity. Qed.
Print Assumptions regexp_long_operand_refuted.

(** ^(a* )* on "b" without the blank: the search does not end. *)
Lemma loop_star : forall k h any m,
  h F_none [40; 97; 42; 41] [98] m = Some (Some [98], m) -> star_loop h k any [40; 97; 42; 41] [] [98] m = None.
Proof.
  induction k as [|k IH]; intros h any m H; [reflexivity|]. cbn [star_loop]. rewrite H. cbn [obind fst snd]. apply IH. exact H.
Qed.
Theorem regexp_endless_refuted : forall fuel, reg_equal fuel [40; 97; 42; 41; 42] [98] = None.
Proof.
  intros fuel. unfold reg_equal. cbn [equal_loop].
  assert (E : match_here fuel F_new [40; 97; 42; 41; 42] [98] None = None); [|rewrite E; reflexivity].
  do 10 (destruct fuel as [|fuel]; [reflexivity|]).
  assert (H : forall n, match_here (S (S (S (S (S (S (S (S (S n))))))))) F_none [40; 97; 42; 41] [98] None = Some (Some [98], None)) by (intros n; vm_compute; reflexivity).
  specialize (H fuel).
  change (match_here (S (S (S (S (S (S (S (S (S (S fuel)))))))))) F_new [40; 97; 42; 41; 42] [98] None)
    with (here_step (match_here (S (S (S (S (S (S (S (S (S fuel)))))))))) (S (S (S (S (S (S (S (S (S fuel))))))))) F_new [40; 97; 42; 41; 42] [98] None).
  revert H. generalize (match_here (S (S (S (S (S (S (S (S (S fuel)))))))))). intros h H.
  rewrite (star_first h _ [40; 97; 42; 41] []); [|reflexivity|reflexivity|reflexivity|reflexivity].
  unfold match_star. cbn [length Nat.ltb Nat.leb].
  rewrite loop_star by exact H. reflexivity.
Qed.
Print Assumptions regexp_endless_refuted.

(** * The preprocessor of the lexer: property theorems

    A lexer made with preprocessing ([mln_lex_init] with [preprocess] set) carries out lines beginning with a number sign: macros, conditions and files
    that are included. [PreSpec] says what documents are and which tokens they stand for, and does not mention the lexer. *)
Require Import List Arith NArith Bool String.
Require Import Verif.Base Verif.HttpModel Verif.LexModel Verif.LexSpec Verif.PreModel Verif.PreSpec Verif.PreProofs.
Import ListNotations.
Local Open Scope N_scope.
Local Open Scope list_scope.
Arguments lex files%function_scope kw%list_scope fuel%nat_scope s.

(** The lexer gives the tokens that a document stands for, ends where the document ends and fails where it is wrong: macros are replaced by their values,
    conditions choose the part that is read, in any nesting, files that are included are read in their place and loops of files are found. It stops, and
    however long it runs there are no other tokens. At the end the macros that are defined are those of the document, and no condition is open.
    Partial: a part that is left out must be harmless ([PreSpec.harmless]), see [pre_omitted_refuted]. *)
Theorem pre_says_partial : forall kw docs nm d r ts,
  keywords_ok kw -> (forall p d, docs p = Some d -> formed kw d) -> formed kw d ->
  gives docs harmless (match nm with Some p => [p] | None => [] end) initial d r ts ->
  (exists n, snd (fst (lex (texts docs) kw n (lexer nm (render d)))) <> NoFuel) /\
  forall n out e f, lex (texts docs) kw n (lexer nm (render d)) = (out, e, f) -> e <> NoFuel ->
    out = ts /\
    match r with
    | Some e1 => e = Ended /\ level f = 0%nat /\ forall k, lookup k (macros f) <> None <-> defined k e1
    | None => e = Failed
    end.
Proof.
  intros kw docs nm d r ts K D F G. destruct (pre_says_proof kw docs nm d r ts K D F G) as (n & f & E & M). split.
  - exists n. rewrite E. destruct r; discriminate.
  - intros m out e f' E' N. assert (X := lex_fun _ _ _ _ _ _ _ _ _ _ _ E E' ltac:(destruct r; discriminate) N). injection X as <- <- <-. split; [reflexivity|]. destruct r as [e1|]; [|reflexivity].
    rewrite (M e1 eq_refl). split; [reflexivity|]. split; [reflexivity|]. intros k. cbn [macros]. rewrite lookup_mac. unfold defined. destruct (in_dec (list_eq_dec N.eq_dec) k (map fst e1)); tauto.
Qed.
Print Assumptions pre_says_partial.

(** A keyword, and documents: a macro with a value, a condition within a condition, a file that is included, and a file that includes itself. *)
Definition kw1 : list bytes := [text "on"%string].
Definition w (s : string) : piece := (TId (text s), text s).
Definition on : piece := (TKw 0, text "on"%string).
Definition seven : piece := (TDec (text "7"%string), text "7"%string).
Definition plus_ : piece := (TSpec 43, [43]).
Definition lib_doc : doc := Define (text "b") [on; plus_; w "z"] (Piece (w "inside") Stop).
Definition self_doc : doc := Piece seven (Include (text "self"%string) Stop).
Definition docs1 (p : bytes) : option doc := if same p (text "lib"%string) then Some lib_doc else if same p (text "self"%string) then Some self_doc else None.
Definition doc1 : doc :=
  Define (text "a") [seven] (Include (text "lib"%string)
    (Cond false (text "a") (Piece on (Cond true (text "b") (Use (text "a") Stop) (Some (Use (text "b") (Undef (text "a") Stop))) Stop)) (Some (Piece (w "no") (Define (text "c") [w "x"] Stop)))
      (Cond true (text "a") (Piece (w "end") Stop) None Stop))).
Lemma word_ok s : (match s with c :: r => is_letter c && forallb PreModel.word_char r | [] => false end && negb (same s [95])) = true -> word s.
Proof.
  intros H. apply andb_true_iff in H. destruct H as [H N]. destruct s as [|c r]; [discriminate|]. apply andb_true_iff in H. destruct H as [L F]. split.
  - exists c, r. split; [reflexivity|]. split; [now apply LexProofs.is_letter_iff|]. apply Forall_forall. intros x X. apply (proj1 (forallb_forall _ _) F) in X. unfold PreModel.word_char in X. apply orb_true_iff in X.
    destruct X as [X|X]; [left; now apply LexProofs.is_letter_iff|right; now apply LexProofs.isdigit_iff].
  - intros E. rewrite E, same_refl in N. discriminate.
Qed.
Lemma kw1_ok : keywords_ok kw1.
Proof. split; [repeat constructor; now apply word_ok|repeat constructor; intros []]. Qed.
Lemma w_ok s : (match text s with c :: r => is_letter c && forallb PreModel.word_char r | [] => false end && negb (same (text s) [95])) = true -> same (text s) (text "on"%string) = false -> a_piece kw1 (w s).
Proof. intros W N. apply sp_word; [now apply word_ok|]. intros [E|[]]. cbn [snd w] in E. rewrite <- E, same_refl in N. discriminate. Qed.
Lemma on_ok : a_piece kw1 on.
Proof. apply sp_kw. reflexivity. Qed.
Lemma seven_ok : a_piece kw1 seven.
Proof. apply sp_num. apply (n_dec 55 []); [unfold dec_digit|constructor]. split; discriminate. Qed.
Lemma plus_ok : a_piece kw1 plus_.
Proof. apply sp_other. exists 43. repeat split. discriminate. Qed.
Lemma last_ok (v : list piece) (q : piece) : snd q <> [92] -> forall v' (p : piece), v ++ [q] = v' ++ [p] -> snd p <> [92].
Proof. intros H v' p E. apply app_inj_tail in E. destruct E as [_ <-]. exact H. Qed.
Ltac pieces := repeat first [apply on_ok | apply seven_ok | apply plus_ok | apply w_ok; reflexivity | constructor].
Lemma lib_ok : formed kw1 lib_doc.
Proof. cbn [formed lib_doc]. split; [left; now apply word_ok|]. split; [split; [pieces|apply (last_ok [on; plus_] (w "z")); discriminate]|]. split; [pieces|exact I]. Qed.
Lemma self_ok : formed kw1 self_doc.
Proof. cbn [formed self_doc]. split; [pieces|]. repeat split; [discriminate|]. vm_compute. intuition discriminate. Qed.
Lemma docs1_ok p d : docs1 p = Some d -> formed kw1 d.
Proof. unfold docs1. destruct (same p _); [intros E; injection E as <-; exact lib_ok|]. destruct (same p _); [intros E; injection E as <-; exact self_ok|discriminate]. Qed.
Lemma doc1_ok : formed kw1 doc1.
Proof.
  cbn [formed doc1]. unfold a_value. repeat match goal with |- _ /\ _ => split end; try exact I; try (left; now apply word_ok); try (now pieces); try discriminate.
  1: apply (last_ok [] seven); discriminate.
  1: vm_compute; intuition discriminate.
  1, 2: vm_compute; intuition discriminate.
  1: apply (last_ok [] (w "x")); discriminate.
Qed.
Ltac known := unfold defined; cbn [map fst In]; vm_compute; intuition discriminate.
Lemma doc1_gives : exists e1, gives docs1 harmless [] initial doc1 (Some e1) ([TId (text "inside"); TKw 0; TKw 0; TSpec 43; TId (text "z"); TId (text "end"%string)]).
Proof.
  eexists. unfold doc1. apply g_define; [known|]. eapply (g_include _ _ _ _ _ _ lib_doc _ _ [TId (text "inside")]); [reflexivity|intros []| |].
  - apply g_define; [known|]. apply g_piece. apply g_stop.
  - eapply (g_yes _ _ _ _ _ _ _ _ _ _ _ [TKw 0; TKw 0; TSpec 43; TId (text "z")] [TId (text "end"%string)]); [known|exact I| |].
    + apply g_piece. eapply (g_no _ _ _ _ true _ _ _ _ _ _ [TKw 0; TSpec 43; TId (text "z")] []); [known|cbn [harmless]; split; [known|exact I]| |apply g_stop].
      apply (g_use _ _ _ _ _ [on; plus_; w "z"] _ _ []); [left; reflexivity|]. apply g_undef. apply g_stop.
    + eapply (g_yes _ _ _ _ true _ _ None _ _ _ [TId (text "end"%string)] []); [known|exact I| |apply g_stop]. apply g_piece. apply g_stop.
Qed.
Example pre_ex : exists n f, lex (texts docs1) kw1 n (lexer None (render doc1)) = ([TId (text "inside"); TKw 0; TKw 0; TSpec 43; TId (text "z"); TId (text "end"%string)], Ended, f).
Proof. exists 100%nat. eexists. vm_compute. reflexivity. Qed.
(** A file that includes itself fails behind its first token. *)
Example pre_ex_loop : gives docs1 harmless [text "self"%string] initial self_doc None [TDec (text "7"%string)].
Proof. unfold self_doc. apply g_piece. apply g_include_loop. now left. Qed.
Example pre_ex_loop_runs : snd (fst (lex (texts docs1) kw1 50 (lexer (Some (text "self"%string)) (render self_doc)))) = Failed.
Proof. vm_compute. reflexivity. Qed.

(** ** What does not hold *)

(** Parts that are left out are not without effect: macros are undefined in them, macros that are not known are errors in them, and so are files that
    cannot be included. *)
Theorem pre_omitted_refuted : ~ (forall kw docs nm d r ts,
  keywords_ok kw -> (forall p d, docs p = Some d -> formed kw d) -> formed kw d ->
  gives docs (fun _ _ => True) (match nm with Some p => [p] | None => [] end) initial d r ts ->
  forall n out e f, lex (texts docs) kw n (lexer nm (render d)) = (out, e, f) -> e <> NoFuel -> out = ts).
Proof.
  intros H. set (d := Cond true (text "true"%string) (Undef (text "true"%string) Stop) None (Cond false (text "true"%string) (Piece on Stop) None Stop)).
  assert (F : formed kw1 d) by (cbn [formed d]; repeat split; try exact on_ok; left; now apply word_ok).
  assert (G : gives (fun _ => None) (fun _ _ => True) [] initial d (Some initial) [TKw 0]).
  { apply g_none; [right; left; reflexivity|exact I|]. eapply (g_yes _ _ _ _ _ _ _ None _ _ _ [TKw 0] []); [right; left; reflexivity|exact I| |apply g_stop]. apply g_piece. apply g_stop. }
  specialize (H kw1 (fun _ => None) None d (Some initial) [TKw 0] kw1_ok ltac:(discriminate) F G 50%nat). destruct (lex (texts (fun _ => None)) kw1 50 (lexer None (render d))) as [[out e] f] eqn:E.
  specialize (H out e f eq_refl). vm_compute in E. injection E as <- <- <-. specialize (H ltac:(discriminate)). discriminate.
Qed.
Print Assumptions pre_omitted_refuted.
Example pre_omitted_use : let d := Cond true (text "true"%string) (Use (text "b"%string) Stop) None Stop in
  gives (fun _ => None) (fun _ _ => True) [] initial d (Some initial) [] /\ snd (fst (lex (texts (fun _ => None)) kw1 50 (lexer None (render d)))) = Failed.
Proof. split; [|vm_compute; reflexivity]. apply g_none; [right; left; reflexivity|exact I|apply g_stop]. Qed.

(** The lexer need not stop: a macro whose value uses it. In C the function calls itself at every turn, so that its stack overflows. *)
Theorem pre_stops_refuted : ~ (forall files kw nm t, keywords_ok kw -> exists n, snd (fst (lex files kw n (lexer nm t))) <> NoFuel).
Proof.
  intros H. set (s := mkP [(None, [35; 97]); (None, [10])] [([97], Some [35; 97]); ([49], None); ([116; 114; 117; 101], None)] 0 0 false).
  assert (L : forall n, lex (fun _ => None) kw1 n s = ([], NoFuel, s)) by (induction n as [|n IH]; [reflexivity|]; cbn [lex]; exact IH).
  destruct (H (fun _ => None) kw1 None (text "#define a #a"%string ++ [10] ++ text "#a"%string ++ [10]) kw1_ok) as (n & E). apply E. clear E. destruct n as [|[|n]]; [reflexivity|reflexivity|].
  change (lex (fun _ => None) kw1 (S (S n)) (lexer None (text "#define a #a"%string ++ [10] ++ text "#a"%string ++ [10]))) with (lex (fun _ => None) kw1 n s). now rewrite L.
Qed.
Print Assumptions pre_stops_refuted.

(** A directive that needs a name and whose line is the last, without an end of line, is never left, in C too: the character behind the end is read
    again and again until memory runs out. *)
Theorem pre_last_line_refuted : ~ (forall files kw nm t n, keywords_ok kw -> snd (fst (lex files kw n (lexer nm t))) <> Hangs).
Proof. intros H. apply (H (fun _ => None) kw1 None (text "#define a"%string) 1%nat kw1_ok). vm_compute. reflexivity. Qed.
Print Assumptions pre_last_line_refuted.

(** A condition need not be closed. *)
Theorem pre_unclosed_refuted : ~ (forall files kw nm t n ts f, keywords_ok kw -> lex files kw n (lexer nm t) = (ts, Ended, f) -> level f = 0%nat).
Proof. intros H. specialize (H (fun _ => None) kw1 None (text "#if true"%string ++ [10] ++ text "on"%string) 9%nat [TKw 0] _ kw1_ok eq_refl). discriminate. Qed.
Print Assumptions pre_unclosed_refuted.

(** A condition may have more than one #else; each of them changes over. *)
Theorem pre_else_twice_refuted : ~ (forall kw yes no more n, keywords_ok kw -> formed kw yes -> formed kw no -> formed kw more ->
  snd (fst (lex (fun _ => None) kw n (lexer None (if_ ++ text "true"%string ++ [10] ++ render yes ++ else_ ++ render no ++ else_ ++ render more ++ endif_)))) <> Ended).
Proof.
  intros H. apply (H kw1 (Piece on Stop) Stop (Piece seven Stop) 50%nat kw1_ok); try (split; [first [exact on_ok|exact seven_ok]|exact I]); [exact I|]. vm_compute. reflexivity.
Qed.
Print Assumptions pre_else_twice_refuted.
Example pre_else_twice : fst (fst (lex (fun _ => None) kw1 50 (lexer None (text "#if true"%string ++ [10] ++ text "on"%string ++ [10] ++ else_ ++ text "no"%string ++ [10] ++ else_ ++ text "7"%string ++ [10] ++ endif_)))) = [TKw 0; TDec [55]].
Proof. vm_compute. reflexivity. Qed.

(** A number sign that stands alone is not its own token but that of the character @. *)
Theorem pre_sign_refuted : ~ (forall kw c n ts f, keywords_ok kw -> special c = true -> lex (fun _ => None) kw n (lexer None [c; 10]) = (ts, Ended, f) -> ts = [TSpec c]).
Proof. intros H. specialize (H kw1 35 9%nat [TSpec 64] _ kw1_ok eq_refl eq_refl). discriminate. Qed.
Print Assumptions pre_sign_refuted.

(** ** Long values *)
(** A value may be written on several lines, all but the last of which end with a backslash; blanks and tabs before the name and before the value are
    skipped. What the macro then stands for is the lines one behind the other. *)
Definition blanks (t : bytes) : Prop := t <> [] /\ Forall (fun c => c = 32 \/ c = 9) t.
Definition on_lines (ls : list bytes) (last : bytes) : bytes := List.concat (map (fun l => l ++ [92; 10]) ls) ++ last ++ [10].
Lemma no_line_end t : ~ In 10 t -> Forall (fun c => negb (c =? 10) = true) t.
Proof. intros H. apply Forall_forall. intros c C. destruct (N.eqb_spec c 10) as [->|]; [contradiction|reflexivity]. Qed.
Lemma lines_read n u b last : last <> [] -> ~ In 10 last -> (forall r, last <> r ++ [92]) -> forall ls fuel acc, Forall (fun l => ~ In 10 l) ls -> (List.length ls < fuel)%nat ->
  lines fuel acc ((n, on_lines ls last ++ u) :: b) = Some (acc ++ List.concat ls ++ last, (n, u) :: b).
Proof.
  intros L1 L2 L3. induction ls as [|l ls IH]; intros fuel acc F LF; (destruct fuel as [|fuel]; [cbn in LF; inversion LF|]); cbn [lines].
  - unfold on_lines. cbn [map List.concat app]. rewrite <- app_assoc. cbn [app]. rewrite take_here; [|apply no_line_end; exact L2|reflexivity]. cbn [getc].
    destruct (exists_last L1) as (r & c & E). rewrite E, app_assoc, rev_app_distr. cbn [rev app]. destruct (N.eqb_spec c 92) as [->|]; [exfalso; exact (L3 r E)|]. reflexivity.
  - inversion F as [|? ? F1 F2]; subst. assert (X : on_lines (l :: ls) last ++ u = (l ++ [92]) ++ 10 :: on_lines ls last ++ u).
    { unfold on_lines. cbn [map List.concat]. rewrite <- !app_assoc. reflexivity. }
    rewrite X. rewrite take_here; [|apply no_line_end; intros I; apply in_app_or in I; destruct I as [I|[I|[]]]; [contradiction|discriminate]|reflexivity].
    cbn [getc]. rewrite app_assoc, rev_app_distr. cbn [rev app]. change (92 =? 92) with true. cbv iota. rewrite rev_involutive.
    rewrite IH; [cbn [List.concat]; now rewrite <- !app_assoc|exact F2|cbn in LF; apply Nat.succ_lt_mono; exact LF].
Qed.
Lemma blanks_all t : blanks t -> Forall (fun c => PreModel.blank c = true) t.
Proof. intros [_ F]. eapply Forall_impl; [|exact F]. intros c [->| ->]; reflexivity. Qed.
Theorem pre_define_lines : forall files kw s n b1 k b2 ls last u b,
  blanks b1 -> a_name k -> blanks b2 -> Forall (fun l => ~ In 10 l) ls -> last <> [] -> ~ In 10 last -> (forall r, last <> r ++ [92]) ->
  ~ In (hd 0 (hd [] (ls ++ [last]))) [32; 9] -> ignore s = false -> lookup k (macros s) = None ->
  step files kw (with_inp s ((n, text "#define"%string ++ b1 ++ k ++ b2 ++ on_lines ls last ++ u) :: b)) =
  Go (with_macros (with_inp s ((n, u) :: b)) ((k, Some (List.concat ls ++ last)) :: macros s)) None.
Proof.
  intros files kw s n b1 k b2 ls last u b B1 K B2 F L1 L2 L3 H IG LK. destruct (name_chars k K) as (KF & x & r & KE). pose proof (blanks_all _ B1) as A1. pose proof (blanks_all _ B2) as A2.
  destruct B1 as [N1 B1]. destruct B2 as [N2 B2]. destruct b1 as [|c1 b1]; [congruence|]. destruct b2 as [|c2 b2]; [congruence|].
  assert (W1 : PreModel.word_char c1 = false) by (destruct (Forall_inv B1) as [->| ->]; reflexivity).
  change (text "#define"%string ++ (c1 :: b1) ++ k ++ (c2 :: b2) ++ on_lines ls last ++ u) with (35 :: [100; 101; 102; 105; 110; 101] ++ c1 :: (b1 ++ k ++ (c2 :: b2) ++ on_lines ls last ++ u)).
  rewrite (sharp_step files kw s n [100; 101; 102; 105; 110; 101] c1 (b1 ++ k ++ (c2 :: b2) ++ on_lines ls last ++ u) b ltac:(repeat constructor) ltac:(discriminate) W1).
  unfold directive. change (same [100; 101; 102; 105; 110; 101] [100; 101; 102; 105; 110; 101]) with true. cbv iota. unfold do_define, name.
  assert (X : PreModel.word_char x = true) by (subst k; exact (Forall_inv KF)). destruct (word_char_not x X) as (X1 & X2 & _).
  assert (T1 : take PreModel.blank ((n, c1 :: b1 ++ k ++ (c2 :: b2) ++ on_lines ls last ++ u) :: b) = (c1 :: b1, (n, k ++ (c2 :: b2) ++ on_lines ls last ++ u) :: b)).
  { subst k. change (c1 :: b1 ++ (x :: r) ++ (c2 :: b2) ++ on_lines ls last ++ u) with ((c1 :: b1) ++ x :: (r ++ (c2 :: b2) ++ on_lines ls last ++ u)). rewrite take_here by assumption. reflexivity. }
  rewrite T1. cbn [snd]. replace (getc ((n, k ++ (c2 :: b2) ++ on_lines ls last ++ u) :: b)) with (Some (x, (n, r ++ (c2 :: b2) ++ on_lines ls last ++ u) :: b)) by (subst k; reflexivity).
  rewrite X. cbn [negb]. change ((c2 :: b2) ++ on_lines ls last ++ u) with (c2 :: (b2 ++ on_lines ls last ++ u)).
  rewrite take_here; [|eapply Forall_impl; [|exact KF]; intros y Y; cbn beta in Y; destruct (word_char_not y Y) as (Y1 & Y2 & _); rewrite Y1; apply N.eqb_neq in Y2; now rewrite Y2|now rewrite (Forall_inv A2)].
  cbn [getc]. cbn [ignore macros with_inp]. rewrite IG, LK. assert (C2 : (c2 =? 10) = false) by (destruct (Forall_inv B2) as [->| ->]; reflexivity). rewrite C2.
  assert (Y : exists y q, on_lines ls last ++ u = y :: q /\ PreModel.blank y = false /\ (y =? 10) = false).
  { destruct ls as [|[|y l] ls]; cbn [app hd] in H.
    - destruct last as [|y l]; [congruence|]. cbn [hd] in H. exists y, ((l ++ [10]) ++ u). split; [reflexivity|]. unfold PreModel.blank. cbn [In] in *.
      split; [destruct (N.eqb_spec y 32) as [->|]; [tauto|]; destruct (N.eqb_spec y 9) as [->|]; [tauto|]; reflexivity|destruct (N.eqb_spec y 10) as [->|]; [exfalso; apply L2; now left|reflexivity]].
    - exists 92. eexists. split; [unfold on_lines; cbn [map List.concat app]; reflexivity|]. split; reflexivity.
    - cbn [hd] in H. exists y. eexists. split; [unfold on_lines; cbn [map List.concat app]; reflexivity|]. unfold PreModel.blank. cbn [In] in *. pose proof (Forall_inv F) as F1. cbn beta in F1.
      split; [destruct (N.eqb_spec y 32) as [->|]; [tauto|]; destruct (N.eqb_spec y 9) as [->|]; [tauto|]; reflexivity|destruct (N.eqb_spec y 10) as [->|]; [exfalso; apply F1; now left|reflexivity]]. }
  destruct Y as (y & q & E & Y1 & Y2). unfold value.
  assert (T2 : take PreModel.blank ((n, b2 ++ on_lines ls last ++ u) :: b) = (b2, (n, on_lines ls last ++ u) :: b)) by (rewrite E; apply take_here; [inversion A2; assumption|exact Y1]).
  rewrite T2. cbn [snd]. rewrite E at 1. cbn [getc]. rewrite Y2. rewrite (lines_read n u b last L1 L2 L3 ls _ [] F).
  - cbn [obind app fst snd]. assert (NE : List.concat ls ++ last <> []) by (intros Z; apply app_eq_nil in Z; destruct Z as [_ Z]; exact (L1 Z)). destruct (List.concat ls ++ last) eqn:V; [congruence|]. reflexivity.
  - apply Nat.lt_succ_r. cbn [total fold_right snd]. unfold on_lines. rewrite !app_length.
    assert (C : forall ls : list bytes, (List.length ls <= List.length (List.concat (map (fun l => l ++ [92; 10]%N) ls)))%nat).
    { clear. induction ls as [|l ls IH]; [apply le_n|]. cbn [map List.concat List.length]. rewrite !app_length. cbn [List.length]. rewrite (Nat.add_comm (List.length l)). cbn [Nat.add]. apply le_n_S. eapply Nat.le_trans; [exact IH|]. apply Nat.le_trans with (2 := Nat.le_succ_diag_r _). apply Nat.le_add_l. }
    eapply Nat.le_trans; [apply C|]. rewrite <- !Nat.add_assoc. apply Nat.le_add_r.
Qed.
Print Assumptions pre_define_lines.
Example pre_define_lines_case : fst (fst (lex (fun _ => None) kw1 50 (lexer None (text "#define"%string ++ [9; 32] ++ text "a"%string ++ [32; 9] ++ on_lines [text "on"%string; text " 7 "%string] (text "z"%string) ++ text "#a #a"%string)))) =
  [TKw 0; TDec [55]; TId [122]; TKw 0; TDec [55]; TId [122]].
Proof. vm_compute. reflexivity. Qed.

(** Between tokens, blanks, tabs and ends of lines in any number have no effect. *)
Theorem pre_blanks : forall files kw s n t u b, Forall (fun c => c = 32 \/ c = 9 \/ c = 10) t ->
  exists k, forall f, lex files kw (k + f) (with_inp s ((n, t ++ u) :: b)) = lex files kw f (with_inp s ((n, u) :: b)).
Proof.
  intros files kw s n t u b F. exists (List.length t). intros f. induction F as [|c t C F IH]; [reflexivity|]. cbn [List.length Nat.add app PreModel.lex].
  rewrite (blank_step files kw s n c (t ++ u) b); [exact IH|]. destruct C as [->|[->| ->]]; [left|left|right]; reflexivity.
Qed.
Print Assumptions pre_blanks.

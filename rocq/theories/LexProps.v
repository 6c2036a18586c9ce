(** What the lexer makes of a text: exactly the tokens that it is spelled with. *)
Require Import List Arith NArith Bool Ascii String Lia.
Require Import Verif.Base Verif.HttpModel Verif.LexModel Verif.LexSpec Verif.LexProofs Verif.ExprModel Verif.ExprSpec Verif.ExprProofs.
Import List ListNotations.
Open Scope list_scope.
Open Scope N_scope.

(** For all keywords, hooks and texts: the tokens that are returned up to the end are [ts], without an error, if and only if the text is [ts] spelled
    out with blanks in between. *)
Theorem lex_exact : forall kw h other, keywords_ok kw -> hooks_ok h other -> forall l ts, plain l -> lexes kw h (Some l) ts <-> spells kw other ts l.
Proof.
  intros kw h other K H l ts P. split; intros L.
  - exact (lexes_spells kw h other H (Some l) ts L P).
  - exact (spells_lexes kw h other K H ts l L P (Some l) eq_refl).
Qed.
Print Assumptions lex_exact.

(** No text is spelled in two ways. *)
Theorem lex_unambiguous : forall kw h other, keywords_ok kw -> hooks_ok h other ->
  forall l ts ts', plain l -> spells kw other ts l -> spells kw other ts' l -> ts = ts'.
Proof.
  intros kw h other K H l ts ts' P S S'. apply (lexes_fun kw h (Some l)); apply (lex_exact kw h other K H); auto.
Qed.
Print Assumptions lex_unambiguous.

(** The keywords and the strings of expressions meet the hypotheses. *)
Theorem lex_expr_exact : forall l ts, plain l -> lexes keywords expr_hooks (Some l) ts <-> spells reserved expr_other ts l.
Proof. exact (lex_exact keywords expr_hooks expr_other expr_keywords_ok expr_hooks_ok). Qed.
Print Assumptions lex_expr_exact.

Ltac lex_all := repeat (eapply lexes_cons; [vm_compute; reflexivity|discriminate|]); eapply lexes_end; vm_compute; reflexivity.
Ltac plain_all := repeat (constructor; [vm_compute; reflexivity|]); constructor.
Definition lex_text : LexModel.bytes := text "iff if 0x1F+017 08.5 12.'a\'b' _ __x:1;" ++ [10; 9].
Example lex_ex : lexes keywords expr_hooks (Some lex_text)
  [TId (text "iff"); TKw K_if; THex (text "0x1F"); TSpec 43; TOct (text "017"); TReal (text "08.5"); TReal (text "12."); T_string (text "a'b"); TSpec 95; TId (text "__x"); TSpec 58; TDec (text "1"); TSpec 59].
Proof. lex_all. Qed.
Example lex_ex_spelled : spells keywords expr_other
  [TId (text "iff"); TKw K_if; THex (text "0x1F"); TSpec 43; TOct (text "017"); TReal (text "08.5"); TReal (text "12."); T_string (text "a'b"); TSpec 95; TId (text "__x"); TSpec 58; TDec (text "1"); TSpec 59] lex_text.
Proof. apply lex_expr_exact; [plain_all|exact lex_ex]. Qed.

(** Refuted: that every string is read whose bytes are written as they are. A byte 255 is taken for the end of the text, a byte 254 for an error. *)
Theorem lex_bytes_refuted :
  ~ (forall l ts, Forall (fun c => c < 256) l -> spells keywords expr_other ts l -> lexes keywords expr_hooks (Some l) ts).
Proof.
  intros H. specialize (H [34; 255; 34] [T_string [255]]).
  assert (S : spells keywords expr_other [T_string [255]] [34; 255; 34]).
  { apply (spells_cons keywords expr_other [] (T_string [255]) [34; 255; 34] [] []); [constructor| |exact I|constructor; constructor].
    apply sp_other. apply (o_str [] 34 [255] [255]); [auto|]. apply b_char; [discriminate|discriminate|constructor]. }
  specialize (H ltac:(repeat (constructor; [reflexivity|]); constructor) S). inversion H as [|l t l' ts T N L]; subst. vm_compute in T. discriminate.
Qed.
Print Assumptions lex_bytes_refuted.

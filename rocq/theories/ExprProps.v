(** Running an expression gives the value that it has, and makes the calls that it means, in their order. *)
Require Import List Arith NArith ZArith Bool Ascii String Lia.
Require Import Verif.Base Verif.HttpModel Verif.LexModel Verif.LexSpec Verif.LexProofs Verif.ExprModel Verif.ExprSpec Verif.ExprProofs Verif.LexProps.
Import List ListNotations.
Open Scope list_scope.
Open Scope N_scope.

(** For every callback, every sequence of expressions [p], and every text [s] of it: if [p] has the value [r] (or fails, if there is none) and its calls lead
    from [w] to [w'], then mln_expr_run returns [r] (or NULL) and has made exactly these calls. The text must end with a blank if its last expression is a
    loop, and an if whose condition is false must have an else. *)
Theorem expr_run_value_partial : forall W (cb : callback W) p w r w' s,
  eval_seq cb true w VNull p r w' -> spells reserved expr_other (seq_tokens p) s -> plain s -> blank_end s \/ ends_with_loop p = false ->
  exists n, forall fuel, (n <= fuel)%nat -> expr_run cb fuel s w = Result r w'.
Proof.
  intros W cb p w r w' s E S P B. change reserved with keywords in S.
  assert (X : exists bl, (bl = true -> blank_end s) /\ (bl = true \/ ends_with_loop p = false)).
  { destruct B as [B|B]; [exists true|exists false]; split; auto; discriminate. }
  destruct X as (bl & X1 & X2). destruct (evaluates cb bl) as (_ & _ & H & _). destruct (H _ _ _ _ _ E) as (_ & _ & H3).
  apply (H3 (mkSt (Some s) None false w) None); auto. repeat split. cbn. apply (spells_reads bl (seq_tokens p) s S P X1 (Some s)). reflexivity.
Qed.
Print Assumptions expr_run_value_partial.

(** ** Examples *)
(** The state of this callback is a number and what was called. [tick] counts down; [add] adds up; anything else has no value. *)
Definition say (ns : option LexModel.bytes) (n : LexModel.bytes) : LexModel.bytes := match ns with None => n | Some a => a ++ text "/" ++ n end.
Definition total (vs : list value) : Z := fold_right (fun v a => match v with VInt z => (z + a)%Z | _ => a end) 0%Z vs.
Definition demo : callback (N * list LexModel.bytes) := fun w ns n args =>
  let w1 := (fst w, snd w ++ [say ns n]) in
  if list_eq_dec N.eq_dec n (text "tick") then (Some (VInt (Z.of_N (fst w))), (fst w - 1, snd w1))
  else if list_eq_dec N.eq_dec n (text "add") then (Some (VInt (match args with None => 0%Z | Some vs => total vs end)), w1)
  else if list_eq_dec N.eq_dec n (text "x") then (Some (VStr (text "x")), w1)
  else (None, w1).
Definition demo_text : LexModel.bytes := text "if x then m:n:add(1, add(x, 2) ,x, 0x10) else bad fi loop tick() do x if x then 'v' else 1 fi end ".
Definition a_tick : expr := Call [] (text "tick") ENil.
Definition a_x : expr := Var [] (text "x").
Definition lit1 := Lit (LDec (text "1")).
Definition lit2 := Lit (LDec (text "2")).
Definition lit3 := Lit (LDec (text "3")).
Definition demo_prog : exprs :=
  ECons (If a_x
           (ECons (Call [text "m"; text "n"] (text "add")
                     (ECons lit1 (ECons (Call [] (text "add") (ECons a_x (ECons lit2 ENil)))
                        (ECons a_x (ECons (Lit (LHex (text "0x10"))) ENil))))) ENil)
           (ECons (Var [] (text "bad")) ENil))
  (ECons (Loop a_tick (ECons a_x (ECons (If a_x (ECons (Lit (LStr (text "v"))) ENil) (ECons lit1 ENil)) ENil))) ENil).
Example demo_spelled : spells reserved expr_other (seq_tokens demo_prog) demo_text.
Proof. apply lex_expr_exact; [plain_all|]. lex_all. Qed.
Example demo_blank : blank_end demo_text.
Proof. exists (removelast demo_text), 32. split; [vm_compute; reflexivity|unfold blank; auto]. Qed.
Ltac ev := repeat match goal with
  | |- eval_seq _ _ _ _ ENil _ _ => apply s_nil
  | |- eval_args _ _ _ ENil _ _ => apply a_nil
  | |- eval_args _ _ _ (ECons _ _) _ _ => eapply a_cons
  | |- eval_seq _ _ _ _ (ECons _ _) _ _ => eapply s_next
  | |- eval _ _ _ (Var _ _) _ _ => eapply e_var; vm_compute; reflexivity
  | |- eval _ _ _ (Call _ _ _) _ _ => eapply e_call; [solve [ev]|vm_compute; reflexivity]
  | |- eval _ _ _ (Lit _) _ _ => apply e_lit
  | |- lit_value (LStr _) _ => apply v_str
  | |- lit_value (LDec _) _ => apply v_dec; vm_compute; [discriminate|reflexivity]
  | |- lit_value (LHex ?s) _ => apply (v_hex (skipn 2 s) 16%Z); vm_compute; (discriminate || reflexivity || split; (discriminate || reflexivity))
  end.
Example demo_value : eval_seq demo true (2, []) VNull demo_prog (Some (VStr (text "v"))) (0, map text ["x"; "x"; "add"; "x"; "m:n/add"; "tick"; "x"; "x"; "tick"; "x"; "x"; "tick"])%string.
Proof.
  unfold demo_prog, a_x, a_tick, lit1, lit2. eapply s_next.
  - eapply e_if_true; [ev|vm_compute; discriminate|ev].
  - eapply s_next; [|apply s_nil]. apply e_loop. eapply l_again; [ev|vm_compute; discriminate| |].
    + eapply s_next; [ev|]. eapply s_next; [|apply s_nil]. eapply e_if_true; [ev|vm_compute; discriminate|ev].
    + eapply l_again; [ev|vm_compute; discriminate| |].
      * eapply s_next; [ev|]. eapply s_next; [|apply s_nil]. eapply e_if_true; [ev|vm_compute; discriminate|ev].
      * eapply l_stop; [ev|]. cbn. intros H; apply H; reflexivity.
Qed.
Example demo_run : expr_run demo 200 demo_text (2, []) = Result (Some (VStr (text "v"))) (0, map text ["x"; "x"; "add"; "x"; "m:n/add"; "tick"; "x"; "x"; "tick"; "x"; "x"; "tick"])%string.
Proof. vm_compute. reflexivity. Qed.

(** ** Refuted *)
(** That the value is right for every text: an if without an else whose condition is false takes the else of another if, or fails. *)
Definition if_text : LexModel.bytes := text "if false then 1 fi if true then 2 else 3 fi ".
Definition if_prog : exprs := ECons (IfOnly (Lit LFalse) (ECons lit1 ENil)) (ECons (If (Lit LTrue) (ECons lit2 ENil) (ECons lit3 ENil)) ENil).
Theorem expr_if_refuted :
  ~ (forall W (cb : callback W) p w r w' s,
      eval_seq cb false w VNull p r w' -> spells reserved expr_other (seq_tokens p) s -> plain s -> blank_end s ->
      exists n, forall fuel, (n <= fuel)%nat -> expr_run cb fuel s w = Result r w').
Proof.
  intros H. specialize (H _ demo if_prog (2, []) (Some (VInt 2%Z)) (2, []) if_text).
  destruct H as [n H].
  - eapply s_next.
    + apply (e_ifonly_false demo false (2, []) (Lit LFalse) _ (VBool false)); [reflexivity|apply e_lit, v_false|]. cbn. discriminate.
    + eapply s_next; [|apply s_nil]. eapply e_if_true; [apply e_lit, v_true|reflexivity|]. eapply s_next; [|apply s_nil]. apply e_lit. apply (v_dec (text "2")); vm_compute; [discriminate|reflexivity].
  - apply lex_expr_exact; [plain_all|]. lex_all.
  - plain_all.
  - exists (removelast if_text), 32. split; [vm_compute; reflexivity|unfold blank; auto].
  - specialize (H (40 + n)%nat ltac:(lia)). vm_compute in H. discriminate.
Qed.
Print Assumptions expr_if_refuted.
Example expr_if_takes_the_other_else : expr_run demo 100 if_text (2, []) = Result (Some (VInt 3%Z)) (2, []).
Proof. vm_compute. reflexivity. Qed.
Example expr_if_fails : expr_run demo 100 (text "if false then 1 fi ") (2, []) = Result None (2, []).
Proof. vm_compute. reflexivity. Qed.

(** That the text may end where it likes: a loop at its very end fails after its first round, as there is no input any more to go back in. *)
Definition loop_text : LexModel.bytes := text "loop tick() do 1 end".
Definition loop_prog : exprs := ECons (Loop a_tick (ECons lit1 ENil)) ENil.
Theorem expr_loop_refuted :
  ~ (forall W (cb : callback W) p w r w' s,
      eval_seq cb true w VNull p r w' -> spells reserved expr_other (seq_tokens p) s -> plain s ->
      exists n, forall fuel, (n <= fuel)%nat -> expr_run cb fuel s w = Result r w').
Proof.
  intros H. specialize (H _ demo loop_prog (1, []) (Some (VInt 1%Z)) (0, map text ["tick"; "tick"]%string) loop_text).
  destruct H as [n H].
  - unfold loop_prog, a_tick, lit1. eapply s_next; [|apply s_nil]. apply e_loop. eapply l_again; [ev|vm_compute; discriminate|ev|]. eapply l_stop; [ev|]. cbn. intros H0; apply H0; reflexivity.
  - apply lex_expr_exact; [plain_all|]. lex_all.
  - plain_all.
  - specialize (H (40 + n)%nat ltac:(lia)). vm_compute in H. discriminate.
Qed.
Print Assumptions expr_loop_refuted.
Example expr_loop_fails : expr_run demo 100 loop_text (1, []) = Result None (0, map text ["tick"]%string).
Proof. vm_compute. reflexivity. Qed.
Example expr_loop_with_a_blank : expr_run demo 100 (loop_text ++ [32]) (1, []) = Result (Some (VInt 1%Z)) (0, map text ["tick"; "tick"]%string).
Proof. vm_compute. reflexivity. Qed.

(** A comma is passed over behind a variable, but not behind a constant. *)
Example expr_comma_after_variable : expr_run demo 100 (text "x, 1") (2, []) = Result (Some (VInt 1%Z)) (2, [text "x"]).
Proof. vm_compute. reflexivity. Qed.
Example expr_comma_after_constant : expr_run demo 100 (text "1, x") (2, []) = Result None (2, []).
Proof. vm_compute. reflexivity. Qed.

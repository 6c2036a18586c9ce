(** Expressions: how they are written, and what they mean. *)
Require Import List Arith NArith ZArith.
Require Import Verif.LexModel Verif.LexSpec Verif.ExprModel.
Import ListNotations.
Local Open Scope N_scope.

(** The keywords, by their numbers: true, false, null, if, then, else, fi, loop, do, end. *)
Definition reserved : list bytes :=
  [[116; 114; 117; 101]; [102; 97; 108; 115; 101]; [110; 117; 108; 108]; [105; 102]; [116; 104; 101; 110]; [101; 108; 115; 101]; [102; 105];
   [108; 111; 111; 112]; [100; 111]; [101; 110; 100]].

(** ** Tokens *)
(** What may follow a backslash in a string, and what it stands for: the quotes, the backslash, n, t, b, a, f, r and v. *)
Definition escapes : list (N * N) := [(34, 34); (39, 39); (92, 92); (110, 10); (116, 9); (98, 8); (97, 7); (102, 12); (114, 13); (118, 11)].
Inductive string_body (q : N) : bytes -> bytes -> Prop :=
| b_nil : string_body q [] []
| b_char : forall c v s, c <> q -> c <> 92 -> string_body q v s -> string_body q (c :: v) (c :: s)
| b_escape : forall c x v s, In (c, x) escapes -> string_body q v s -> string_body q (x :: v) (92 :: c :: s).
Definition punctuation (c : N) : Prop := 33 <= c <= 47 \/ 58 <= c <= 64 \/ 91 <= c <= 96 \/ 123 <= c <= 126.
Inductive expr_other (r : bytes) : token -> bytes -> Prop :=
| o_spec : forall c, punctuation c -> c <> 34 -> c <> 39 -> expr_other r (TSpec c) [c]
| o_str : forall q v s, q = 34 \/ q = 39 -> string_body q v s -> expr_other r (T_string v) (q :: s ++ [q]).

(** ** Expressions *)
Inductive lit := LTrue | LFalse | LNull | LStr (s : bytes) | LDec (s : bytes) | LOct (s : bytes) | LHex (s : bytes) | LReal (a b : bytes).
Inductive expr :=
| Lit (l : lit)
| Var (ns : list bytes) (n : bytes)
| Call (ns : list bytes) (n : bytes) (args : exprs)
| If (c : expr) (a b : exprs)
| IfOnly (c : expr) (a : exprs)
| Loop (c : expr) (b : exprs)
with exprs := ENil | ECons (e : expr) (es : exprs).

Definition lit_token (l : lit) : token :=
  match l with
  | LTrue => TKw K_true | LFalse => TKw K_false | LNull => TKw K_null | LStr s => T_string s
  | LDec s => TDec s | LOct s => TOct s | LHex s => THex s | LReal a b => TReal (a ++ 46 :: b)
  end.
Definition LPAR := TSpec 40. Definition RPAR := TSpec 41. Definition COMMA := TSpec 44. Definition COLON := TSpec 58.
Definition path_tokens (ns : list bytes) : list token := flat_map (fun n => [TId n; COLON]) ns.
Fixpoint tokens (e : expr) : list token :=
  match e with
  | Lit l => [lit_token l]
  | Var ns n => path_tokens ns ++ [TId n]
  | Call ns n args => path_tokens ns ++ [TId n; LPAR] ++ arg_tokens args ++ [RPAR]
  | If c a b => [TKw K_if] ++ tokens c ++ [TKw K_then] ++ seq_tokens a ++ [TKw K_else] ++ seq_tokens b ++ [TKw K_fi]
  | IfOnly c a => [TKw K_if] ++ tokens c ++ [TKw K_then] ++ seq_tokens a ++ [TKw K_fi]
  | Loop c b => [TKw K_loop] ++ tokens c ++ [TKw K_do] ++ seq_tokens b ++ [TKw K_end]
  end
with arg_tokens (es : exprs) : list token :=
  match es with ENil => [] | ECons e ENil => tokens e | ECons e es => tokens e ++ COMMA :: arg_tokens es end
with seq_tokens (es : exprs) : list token :=
  match es with ENil => [] | ECons e es => tokens e ++ seq_tokens es end.

(** ** Meaning *)
Definition digit_of (c : N) : N := if c <=? 57 then c - 48 else if c <=? 70 then c - 55 else c - 87.
Fixpoint positional (base : N) (s : bytes) : N := match s with [] => 0 | c :: r => digit_of c * base ^ N.of_nat (length r) + positional base r end.
Inductive lit_value : lit -> value -> Prop :=
| v_true : lit_value LTrue (VBool true)
| v_false : lit_value LFalse (VBool false)
| v_null : lit_value LNull VNull
| v_str : forall s, lit_value (LStr s) (VStr s)
| v_dec : forall s, N.of_nat (length s) <= 1023 -> positional 10 s < 2 ^ 63 -> lit_value (LDec s) (VInt (Z.of_N (positional 10 s)))
| v_oct : forall s z, N.of_nat (length s) <= 1023 -> positional 8 s < 2 ^ 64 -> (- 2 ^ 63 <= z < 2 ^ 63)%Z -> (z mod 2 ^ 64 = Z.of_N (positional 8 s))%Z ->
    lit_value (LOct s) (VInt z)
| v_hex : forall s z, N.of_nat (length s) <= 1021 -> positional 16 s < 2 ^ 64 -> (- 2 ^ 63 <= z < 2 ^ 63)%Z -> (z mod 2 ^ 64 = Z.of_N (positional 16 s))%Z ->
    lit_value (LHex (48 :: 120 :: s)) (VInt z)
| v_real : forall a b, Forall dec_digit a -> N.of_nat (length a + length b) <= 1022 -> lit_value (LReal a b) (VReal (positional 10 (a ++ b)) (N.of_nat (length b))).

Definition truthy (v : value) : Prop :=
  match v with
  | VNull => False | VBool b => b = true | VInt z => z <> 0%Z | VReal n _ => n <> 0 | VStr s => s <> [] | VUdata p => p <> 0
  end.
(** a:b is the namespace of c in a:b:c. *)
Fixpoint colons (n : bytes) (ns : list bytes) : bytes := match ns with [] => n | m :: ns => n ++ [58] ++ colons m ns end.
Definition path (ns : list bytes) : option bytes := match ns with [] => None | n :: ns => Some (colons n ns) end.

(** [eval w e r w']: [e] has the value [r], or fails if there is none, and its calls of [cb] lead from [w] to [w'].
    A failing call ends all. The value of a sequence is the value of its last expression. With [strict] there is no meaning for an if without an else
    whose condition is false. *)
Section Eval.
Context {W : Type} (cb : callback W) (strict : bool).
Inductive eval : W -> expr -> option value -> W -> Prop :=
| e_lit : forall w l v, lit_value l v -> eval w (Lit l) (Some v) w
| e_var : forall w ns n r w', cb w (path ns) n None = (r, w') -> eval w (Var ns n) r w'
| e_call : forall w ns n args vs w1 r w2, eval_args w args (Some vs) w1 -> cb w1 (path ns) n (Some vs) = (r, w2) -> eval w (Call ns n args) r w2
| e_call_fails : forall w ns n args w1, eval_args w args None w1 -> eval w (Call ns n args) None w1
| e_if_fails : forall w c a b w1, eval w c None w1 -> eval w (If c a b) None w1
| e_if_true : forall w c a b v w1 r w2, eval w c (Some v) w1 -> truthy v -> eval_seq w1 VNull a r w2 -> eval w (If c a b) r w2
| e_if_false : forall w c a b v w1 r w2, eval w c (Some v) w1 -> ~ truthy v -> eval_seq w1 VNull b r w2 -> eval w (If c a b) r w2
| e_ifonly_fails : forall w c a w1, eval w c None w1 -> eval w (IfOnly c a) None w1
| e_ifonly_true : forall w c a v w1 r w2, eval w c (Some v) w1 -> truthy v -> eval_seq w1 VNull a r w2 -> eval w (IfOnly c a) r w2
| e_ifonly_false : forall w c a v w1, strict = false -> eval w c (Some v) w1 -> ~ truthy v -> eval w (IfOnly c a) (Some VNull) w1
| e_loop : forall w c b r w', eval_loop w VNull c b r w' -> eval w (Loop c b) r w'
with eval_args : W -> exprs -> option (list value) -> W -> Prop :=
| a_nil : forall w, eval_args w ENil (Some []) w
| a_fails : forall w e es w1, eval w e None w1 -> eval_args w (ECons e es) None w1
| a_cons : forall w e es v w1 vs w2, eval w e (Some v) w1 -> eval_args w1 es (Some vs) w2 -> eval_args w (ECons e es) (Some (v :: vs)) w2
| a_cons_fails : forall w e es v w1 w2, eval w e (Some v) w1 -> eval_args w1 es None w2 -> eval_args w (ECons e es) None w2
with eval_seq : W -> value -> exprs -> option value -> W -> Prop :=
| s_nil : forall w v, eval_seq w v ENil (Some v) w
| s_fails : forall w v e es w1, eval w e None w1 -> eval_seq w v (ECons e es) None w1
| s_next : forall w v e es v1 w1 r w2, eval w e (Some v1) w1 -> eval_seq w1 v1 es r w2 -> eval_seq w v (ECons e es) r w2
with eval_loop : W -> value -> expr -> exprs -> option value -> W -> Prop :=
| l_fails : forall w v c b w1, eval w c None w1 -> eval_loop w v c b None w1
| l_stop : forall w v c b x w1, eval w c (Some x) w1 -> ~ truthy x -> eval_loop w v c b (Some v) w1
| l_body_fails : forall w v c b x w1 w2, eval w c (Some x) w1 -> truthy x -> eval_seq w1 v b None w2 -> eval_loop w v c b None w2
| l_again : forall w v c b x w1 v' w2 r w3, eval w c (Some x) w1 -> truthy x -> eval_seq w1 v b (Some v') w2 -> eval_loop w2 v' c b r w3 -> eval_loop w v c b r w3.
End Eval.

(** The last expression is a loop. *)
Definition is_loop (e : expr) : bool := match e with Loop _ _ => true | _ => false end.
Fixpoint ends_with_loop (es : exprs) : bool := match es with ENil => false | ECons e ENil => is_loop e | ECons _ es => ends_with_loop es end.

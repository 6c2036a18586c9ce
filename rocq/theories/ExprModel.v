(** Model of src/mln_expr.c: expressions in a text in memory.

    Values are copied; their memory, their reference counts and their [free] functions are not modelled. Reals are kept as the digits of the text.
    The callback is a function of a state of its own, the [data] of mln_expr_run, and answers with a value or with none. *)
Require Import List Arith NArith ZArith Bool Ascii String.
Require Import Verif.Base Verif.StrModel Verif.HttpModel Verif.LexModel.
Import List ListNotations.
Open Scope list_scope.
Open Scope N_scope.

(** include/mln_expr.h:20-40; [VReal n d] is the number n / 10 ^ d; [VUdata 0] is a null pointer. *)
Inductive value := VNull | VBool (b : bool) | VInt (z : Z) | VReal (n d : N) | VStr (s : LexModel.bytes) | VUdata (p : N).
(** src/mln_expr.c:8-20 and 22-48 *)
Definition keywords : list LexModel.bytes := map text ["true"; "false"; "null"; "if"; "then"; "else"; "fi"; "loop"; "do"; "end"]%string.
Definition K_true := 0%nat. Definition K_false := 1%nat. Definition K_null := 2%nat. Definition K_if := 3%nat. Definition K_then := 4%nat. Definition K_else := 5%nat.
Definition K_fi := 6%nat. Definition K_loop := 7%nat. Definition K_do := 8%nat. Definition K_end := 9%nat.
Definition T_string (s : LexModel.bytes) : token := TTag 0 s.

(** src/mln_expr.c:57-100 mln_get_char: what follows a backslash. *)
Definition escape (n : N) : option N :=
  if (n =? 34) || (n =? 39) || (n =? 92) then Some n
  else if n =? 110 then Some 10 else if n =? 116 then Some 9 else if n =? 98 then Some 8 else if n =? 97 then Some 7
  else if n =? 102 then Some 12 else if n =? 114 then Some 13 else if n =? 118 then Some 11 else None.
(** src/mln_expr.c:102-132 mln_expr_dblq_handler, mln_expr_sglq_handler *)
Fixpoint quoted (q : N) (l : LexModel.bytes) : option (LexModel.bytes * LexModel.bytes) :=
  match l with
  | [] => None
  | c :: r =>
      if (c =? ERR) || (c =? EOF) then None
      else if c =? q then Some ([], r)
      else if c =? 92 then match r with [] => None | n :: r => v <- escape n ;; x <- quoted q r ;; Some (v :: fst x, snd x) end
      else x <- quoted q r ;; Some (c :: fst x, snd x)
  end.
Definition string_hook (q : N) (l : LexModel.bytes) : lexed := match quoted q l with None => LErr | Some (s, r) => LTok (T_string s) (Some r) end.
Definition expr_hooks : hooks := fun c => if (c =? 34) || (c =? 39) then Some (string_hook c) else None.
Definition expr_token (l : lx) : lexed := lex_token keywords expr_hooks l.

(** sscanf: the digits in front; out of range is undefined. *)
Definition digit (c : N) : N := if c <=? 57 then c - 48 else if c <=? 70 then c - 55 else c - 87.
Definition numeral (base : N) (s : LexModel.bytes) : N := fold_left (fun a c => a * base + digit c) s 0.
Definition s64 (n : N) : Z := if n <? 2 ^ 63 then Z.of_N n else (Z.of_N n - 2 ^ 64)%Z.
(** At most 1023 characters of the text are looked at. *)
Definition cut (s : LexModel.bytes) : LexModel.bytes := firstn (N.to_nat 1023) s.
Fixpoint split_dot (s : LexModel.bytes) : LexModel.bytes * LexModel.bytes :=
  match s with [] => ([], []) | c :: r => if c =? 46 then ([], r) else let (a, b) := split_dot r in (c :: a, b) end.
Inductive made := Undefined | Invalid | Made (v : value).
(** src/mln_expr.c:134-191 mln_expr_val_init *)
Definition val_init (t : token) : made :=
  match t with
  | TOct s => let n := numeral 8 (cut s) in if n <? 2 ^ 64 then Made (VInt (s64 n)) else Undefined
  | TDec s => let n := numeral 10 (cut s) in if n <? 2 ^ 63 then Made (VInt (Z.of_N n)) else Undefined
  | THex s => let n := numeral 16 (skipn 2 (cut s)) in if n <? 2 ^ 64 then Made (VInt (s64 n)) else Undefined
  | TReal s => let (a, b) := split_dot (cut s) in Made (VReal (numeral 10 (a ++ b)) (N.of_nat (List.length b)))
  | TTag 0 s => Made (VStr s)
  | TKw 0 => Made (VBool true)
  | TKw 1 => Made (VBool false)
  | TKw 2 => Made VNull
  | _ => Invalid
  end.
(** src/mln_expr.c:463-483 and 630-650: what counts as true. A real so small that it is rounded to zero is not modelled. *)
Definition truth (v : value) : bool :=
  match v with VNull => false | VBool b => b | VInt z => negb (Z.eqb z 0) | VReal n _ => negb (n =? 0) | VStr s => negb (Nat.eqb (List.length s) 0) | VUdata p => negb (p =? 0) end.

(** The lexer, [*next], [*eof], and the state of the callback. *)
Record st (W : Type) := mkSt { input : lx; ahead : option token; at_eof : bool; world : W }.
Arguments mkSt {W}. Arguments input {W}. Arguments ahead {W}. Arguments at_eof {W}. Arguments world {W}.
(** include/mln_expr.h:11-14 *)
Inductive rc := RErr | ROk | RComma | RRpar.
Inductive outcome (W : Type) := OutOfFuel | Undef | Ret (r : rc) (v : value) (s : st W).
Arguments OutOfFuel {W}. Arguments Undef {W}. Arguments Ret {W}.
(** The callback gets the namespace, the name, and the arguments if it is a function. *)
Definition callback (W : Type) := W -> option LexModel.bytes -> LexModel.bytes -> option (list value) -> option value * W.

(** A token from [*next] or from the lexer. *)
Definition take {W} (s : st W) : option (token * st W) :=
  match ahead s with
  | Some t => Some (t, mkSt (input s) None (at_eof s) (world s))
  | None => match expr_token (input s) with LErr => None | LTok t l => Some (t, mkSt l None (at_eof s) (world s)) end
  end.
Definition push {W} (t : token) (s : st W) : st W := mkSt (input s) (Some t) (at_eof s) (world s).
(** src/mln_string.c:321-362 mln_string_pool_concat of the namespace and a name, with a colon *)
Definition join (ns : option LexModel.bytes) (n : LexModel.bytes) : LexModel.bytes := match ns with None => n | Some a => a ++ [58] ++ n end.

Definition is_spec (c : N) (t : token) : bool := match t with TSpec d => c =? d | _ => false end.

(** src/mln_expr.c:516-530: to the end of the if, behind the else. *)
Fixpoint skip_fi {W} (fuel : nat) (count : Z) (s : st W) : outcome W :=
  match fuel with
  | O => OutOfFuel
  | S fuel =>
      match take s with
      | None => Ret RErr VNull s
      | Some (t, s) =>
          match t with
          | TKw 3 => skip_fi fuel (count + 1) s
          | TEof => Ret RErr VNull s
          | TKw 6 => if Z.eqb count 0 then Ret ROk VNull s else skip_fi fuel (count - 1) s
          | _ => skip_fi fuel count s
          end
      end
  end.
(** src/mln_expr.c:552-575: to the else. *)
Fixpoint skip_else {W} (fuel : nat) (count : Z) (s : st W) : outcome W :=
  match fuel with
  | O => OutOfFuel
  | S fuel =>
      match take s with
      | None => Ret RErr VNull s
      | Some (t, s) =>
          match t with
          | TKw 3 => skip_else fuel (count + 1) s
          | TEof => Ret RErr VNull s
          | TKw 6 => skip_else fuel (count - 1) s
          | TKw 5 => if Z.eqb count 0 then Ret ROk VNull s else skip_else fuel count s
          | _ => skip_else fuel count s
          end
      end
  end.
(** src/mln_expr.c:702-723: to the end of the loop. *)
Fixpoint skip_end {W} (fuel : nat) (count : Z) (s : st W) : outcome W :=
  match fuel with
  | O => OutOfFuel
  | S fuel =>
      match take s with
      | None => Ret RErr VNull s
      | Some (t, s) =>
          match t with
          | TKw 7 => skip_end fuel (count + 1) s
          | TEof => Ret RErr VNull s
          | TKw 9 => if Z.eqb count 0 then Ret ROk VNull s else skip_end fuel (count - 1) s
          | _ => skip_end fuel count s
          end
      end
  end.
(** src/mln_lex.c:778-795 mln_lex_snapshot_apply: without an input, or if the place is the end of the text, nothing happens. *)
Definition rewind {W} (off : lx) (s : st W) : st W :=
  match input s, off with
  | Some _, Some (_ :: _) => mkSt off (ahead s) (at_eof s) (world s)
  | _, _ => s
  end.
Definition with_value {W} (v : value) (o : outcome W) : outcome W := match o with Ret ROk _ s => Ret ROk v s | o => o end.

(** src/mln_expr.c:307-442 mln_expr_parse; [ns] is the namespace so far. *)
Fixpoint parse {W} (cb : callback W) (fuel : nat) (ns : option LexModel.bytes) (s : st W) : outcome W :=
  match fuel with
  | O => OutOfFuel
  | S fuel =>
      match take s with
      | None => Ret RErr VNull s
      | Some (t, s) =>
          match t with
          | TEof => Ret ROk VNull (mkSt (input s) (ahead s) true (world s))
          | TSpec c =>
              if c =? 58 then parse cb fuel ns s
              else if c =? 44 then Ret RComma VNull s
              else if c =? 41 then Ret RRpar VNull s
              else Ret RErr VNull s
          | TKw 3 => parse_if cb fuel s
          | TKw 7 => parse_loop cb fuel (input s) VNull s
          | TId n =>
              match expr_token (input s) with
              | LErr => Ret RErr VNull s
              | LTok t l =>
                  let s := mkSt l None (at_eof s) (world s) in
                  if is_spec 58 t then parse cb fuel (Some (join ns n)) s
                  else if is_spec 40 t then parse_args cb fuel ns n [] s
                  else
                    let '(v, w) := cb (world s) ns n None in
                    let s := mkSt l (match t with TEof => None | _ => if is_spec 44 t then None else Some t end) (at_eof s) w in
                    match v with None => Ret RErr VNull s | Some v => Ret ROk v s end
              end
          | t => match val_init t with Undefined => Undef | Invalid => Ret RErr VNull s | Made v => Ret ROk v s end
          end
      end
  end
(** src/mln_expr.c:398-441: the arguments of a function, and the call. *)
with parse_args {W} (cb : callback W) (fuel : nat) (ns : option LexModel.bytes) (n : LexModel.bytes) (args : list value) (s : st W) : outcome W :=
  match fuel with
  | O => OutOfFuel
  | S fuel =>
      match parse cb fuel None s with
      | Ret RErr v s => Ret RErr VNull s
      | Ret RRpar _ s =>
          let '(v, w) := cb (world s) ns n (Some args) in
          let s := mkSt (input s) (ahead s) (at_eof s) w in
          match v with None => Ret RErr VNull s | Some v => Ret ROk v s end
      | Ret RComma _ s => parse_args cb fuel ns n args s
      | Ret ROk v s => if at_eof s then Ret RErr VNull s else parse_args cb fuel ns n (args ++ [v]) s
      | o => o
      end
  end
(** src/mln_expr.c:444-607 mln_expr_parse_if *)
with parse_if {W} (cb : callback W) (fuel : nat) (s : st W) : outcome W :=
  match fuel with
  | O => OutOfFuel
  | S fuel =>
      match parse cb fuel None s with
      | Ret ROk v s =>
          if at_eof s then Ret RErr VNull s
          else
            match take s with
            | Some (TKw 4, s) =>
                if truth v then then_body cb fuel VNull s
                else match skip_else fuel 0 s with Ret ROk _ s => body cb fuel K_fi VNull s | o => o end
            | _ => Ret RErr VNull s
            end
      | o => o
      end
  end
(** src/mln_expr.c:505-550 *)
with then_body {W} (cb : callback W) (fuel : nat) (last : value) (s : st W) : outcome W :=
  match fuel with
  | O => OutOfFuel
  | S fuel =>
      match take s with
      | None => Ret RErr VNull s
      | Some (TKw 5, s) => with_value last (skip_fi fuel 0 s)
      | Some (TKw 6, s) => Ret ROk last s
      | Some (t, s) =>
          match parse cb fuel None (push t s) with
          | Ret ROk v s => if at_eof s then Ret RErr VNull s else then_body cb fuel v s
          | o => o
          end
      end
  end
(** src/mln_expr.c:577-603 and 672-698: up to the keyword [stop]. *)
with body {W} (cb : callback W) (fuel : nat) (stop : nat) (last : value) (s : st W) : outcome W :=
  match fuel with
  | O => OutOfFuel
  | S fuel =>
      match take s with
      | None => Ret RErr VNull s
      | Some (t, s) =>
          if match t with TKw k => Nat.eqb k stop | _ => false end then Ret ROk last s
          else
            match parse cb fuel None (push t s) with
            | Ret ROk v s => if at_eof s then Ret RErr VNull s else body cb fuel stop v s
            | o => o
            end
      end
  end
(** src/mln_expr.c:609-727 mln_expr_parse_loop; [off] is where the condition starts. *)
with parse_loop {W} (cb : callback W) (fuel : nat) (off : lx) (last : value) (s : st W) : outcome W :=
  match fuel with
  | O => OutOfFuel
  | S fuel =>
      match parse cb fuel None s with
      | Ret ROk v s =>
          if at_eof s then Ret RErr VNull s
          else
            match take s with
            | Some (TKw 8, s) =>
                if truth v then
                  match body cb fuel K_end last s with
                  | Ret ROk v s => parse_loop cb fuel off v (rewind off s)
                  | o => o
                  end
                else with_value last (skip_end fuel 0 s)
            | _ => Ret RErr VNull s
            end
      | o => o
      end
  end.

Inductive result (W : Type) := RunFuel | RunUndef | Result (v : option value) (w : W).
Arguments RunFuel {W}. Arguments RunUndef {W}. Arguments Result {W}.
(** src/mln_expr.c:729-786 mln_expr_run *)
Fixpoint run_loop {W} (cb : callback W) (fuel : nat) (ret : option value) (s : st W) : result W :=
  match fuel with
  | O => RunFuel
  | S fuel =>
      match parse cb fuel None s with
      | OutOfFuel => RunFuel
      | Undef => RunUndef
      | Ret ROk v s =>
          if at_eof s then Result (Some (match ret with None => VNull | Some v => v end)) (world s)
          else run_loop cb fuel (Some v) s
      | Ret _ _ s => Result None (world s)
      end
  end.
Definition expr_run {W} (cb : callback W) (fuel : nat) (exp : LexModel.bytes) (w : W) : result W := run_loop cb fuel None (mkSt (Some exp) None false w).

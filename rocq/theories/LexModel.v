(** Model of the lexer that the macros of include/mln_lex.h define, for a text in memory and without preprocessing.

    The input is what is left of the text, or [None] once its end was read: the input is freed then. A token is cut out of the text byte by byte.
    The bytes 254 and 255 are read as MLN_ERR and MLN_EOF. The keywords are looked up in a list: the tree of src/mln_rbtree.c finds what is equal
    (RbProps). Lines are not counted. Memory allocation succeeds. *)
Require Import List Arith NArith Bool.
Require Import Verif.Base.
Import ListNotations.
Local Open Scope N_scope.

Definition bytes := list N.
Definition lx := option bytes.
(** include/mln_lex.h:20-21, signed characters *)
Definition EOF : N := 255.
Definition ERR : N := 254.

(** include/mln_lex.h:326-379 MLN_DEFINE_TOKEN_TYPE_AND_STRUCT: the types of tokens, with their texts; [TSpec] are the types of single characters,
    [TTag] those that a hook makes. *)
Inductive token := TEof | TOct (s : bytes) | TDec (s : bytes) | THex (s : bytes) | TReal (s : bytes) | TId (s : bytes) | TKw (n : nat) | TSpec (c : N) | TTag (n : nat) (s : bytes).
Inductive lexed := LErr | LTok (t : token) (l : lx).

(** include/mln_utils.h:169-170 *)
Definition isalpha (c : N) : bool := (97 <=? c) && (c <=? 122) || (65 <=? c) && (c <=? 90).
Definition isdigit (c : N) : bool := (48 <=? c) && (c <=? 57).
(** include/mln_lex.h:304-323 mln_lex_is_letter, mln_lex_is_oct, mln_lex_is_hex *)
Definition is_letter (c : N) : bool := (c =? 95) || isalpha c.
Definition is_oct (c : N) : bool := (48 <=? c) && (c <? 56).
Definition is_hex (c : N) : bool := isdigit c || (97 <=? c) && (c <=? 102) || (65 <=? c) && (c <=? 70).

(** include/mln_lex.h:701-706 and 716-724, with 223-232 mln_lex_stepback: characters are read while they belong to the token, and the first that
    does not is given back, unless it is the end. [None]: an error. *)
Fixpoint scan (p : N -> bool) (l : bytes) : option (bytes * lx) :=
  match l with
  | [] => Some ([], None)
  | c :: r =>
      if c =? ERR then None
      else if c =? EOF then Some ([], Some r)
      else if p c then x <- scan p r ;; Some (c :: fst x, snd x)
      else Some ([], Some (c :: r))
  end.

(** include/mln_lex.h:725-786: which number it is. *)
Fixpoint after_oct (s : bytes) : bytes := match s with c :: r => if is_oct c then after_oct r else s | [] => [] end.
Fixpoint after_dec (s : bytes) : bytes := match s with c :: r => if isdigit c then after_dec r else s | [] => [] end.
Definition number (s : bytes) : option token :=
  match s with
  | 48 :: x :: r =>
      if x =? 120 then match r with [] => None | _ => if forallb is_hex r then Some (THex s) else None end
      else
        match after_oct (x :: r) with
        | [] => Some (TOct s)
        | u =>
            if negb (forallb (fun c => isdigit c || (c =? 46)) u) then None
            else if Nat.eqb (length (filter (fun c => c =? 46) u)) 1 then Some (TReal s) else None
        end
  | _ =>
      match after_dec s with
      | [] => Some (TDec s)
      | c :: r => if (c =? 46) && forallb isdigit r then Some (TReal s) else None
      end
  end.

(** The characters of include/mln_lex.h:536-569. *)
Definition special (c : N) : bool := (33 <=? c) && (c <=? 47) || (58 <=? c) && (c <=? 64) || (91 <=? c) && (c <=? 96) || (123 <=? c) && (c <=? 126).
Fixpoint keyword (kw : list bytes) (s : bytes) (i : nat) : option nat :=
  match kw with
  | [] => None
  | k :: r => if list_eq_dec N.eq_dec k s then Some i else keyword r s (S i)
  end.
(** A hook gets what follows its character; [None] is no hook, and the character is a token. *)
Definition hooks := N -> option (bytes -> lexed).
(** include/mln_lex.h:659-669 PREFIX_NAME##_process_spec_char *)
Definition spec_char (h : hooks) (c : N) (l : lx) : lexed :=
  if special c then
    match h c with
    | None => LTok (TSpec c) l
    | Some f => f (match l with Some r => r | None => [] end)
    end
  else LErr.

(** include/mln_lex.h:671-797 PREFIX_NAME##_token, and 642-657 PREFIX_NAME##_process_keywords *)
Fixpoint token_of (kw : list bytes) (h : hooks) (l : bytes) : lexed :=
  match l with
  | [] => LTok TEof None
  | c :: r =>
      if c =? ERR then LErr
      else if c =? EOF then LTok TEof (Some r)
      else if (c =? 10) || (c =? 9) || (c =? 32) then token_of kw h r
      else if is_letter c then
        match scan (fun c => is_letter c || isdigit c) l with
        | None => LErr
        | Some ([95], l) => spec_char h 95 l
        | Some (s, l) => LTok (match keyword kw s 0 with Some i => TKw i | None => TId s end) l
        end
      else if isdigit c then
        match scan (fun c => isdigit c || isalpha c || (c =? 46)) l with
        | None => LErr
        | Some (s, l) => match number s with Some t => LTok t l | None => LErr end
        end
      else spec_char h c (Some r)
  end.
Definition lex_token (kw : list bytes) (h : hooks) (l : lx) : lexed := match l with None => LTok TEof None | Some l => token_of kw h l end.

(** How the tokens of a text are spelled: words, keywords, numbers, and what the user of the lexer adds, with blanks in between. *)
Require Import List Arith NArith.
Require Import Verif.LexModel.
Import ListNotations.
Local Open Scope N_scope.

Definition letter (c : N) : Prop := 97 <= c <= 122 \/ 65 <= c <= 90 \/ c = 95.
Definition dec_digit (c : N) : Prop := 48 <= c <= 57.
Definition oct_digit (c : N) : Prop := 48 <= c <= 55.
Definition hex_digit (c : N) : Prop := 48 <= c <= 57 \/ 97 <= c <= 102 \/ 65 <= c <= 70.
Definition blank (c : N) : Prop := c = 32 \/ c = 9 \/ c = 10.

(** A word is made of letters, underscores and digits, does not start with a digit, and is not a single underscore. *)
Definition word (s : bytes) : Prop := (exists c r, s = c :: r /\ letter c /\ Forall (fun c => letter c \/ dec_digit c) r) /\ s <> [95].

(** Numbers: 12, 0, 017, 0xfF, 0.5, 12. and 08.50 *)
Inductive numeral_of : token -> bytes -> Prop :=
| n_zero : numeral_of (TDec [48]) [48]
| n_dec : forall c s, 49 <= c <= 57 -> Forall dec_digit s -> numeral_of (TDec (c :: s)) (c :: s)
| n_oct : forall s, s <> [] -> Forall oct_digit s -> numeral_of (TOct (48 :: s)) (48 :: s)
| n_hex : forall s, s <> [] -> Forall hex_digit s -> numeral_of (THex (48 :: 120 :: s)) (48 :: 120 :: s)
| n_real : forall a b, a <> [] -> Forall dec_digit a -> Forall dec_digit b -> numeral_of (TReal (a ++ 46 :: b)) (a ++ 46 :: b).

(** [other] are the tokens that start with another character. *)
Inductive spelling (kw : list bytes) (other : token -> bytes -> Prop) : token -> bytes -> Prop :=
| sp_word : forall s, word s -> ~ In s kw -> spelling kw other (TId s) s
| sp_kw : forall i s, nth_error kw i = Some s -> spelling kw other (TKw i) s
| sp_num : forall t s, numeral_of t s -> spelling kw other t s
| sp_other : forall t s, other t s -> spelling kw other t s.

(** A word must not be followed by what would belong to it, nor a number. *)
Definition ends (t : token) (r : bytes) : Prop :=
  match r with
  | [] => True
  | c :: _ =>
      match t with
      | TId _ | TKw _ => ~ letter c /\ ~ dec_digit c
      | TSpec d => d = 95 -> ~ letter c /\ ~ dec_digit c
      | TOct _ | TDec _ | THex _ | TReal _ => ~ (letter c /\ c <> 95) /\ ~ dec_digit c /\ c <> 46
      | _ => True
      end
  end.

(** The text is these tokens, with any blanks in front of each and at the end. What the other tokens are may depend on what follows: [other r]. *)
Inductive spells (kw : list bytes) (other : bytes -> token -> bytes -> Prop) : list token -> bytes -> Prop :=
| spells_nil : forall b, Forall blank b -> spells kw other [] b
| spells_cons : forall b t s ts r,
    Forall blank b -> spelling kw (other r) t s -> ends t r -> spells kw other ts r -> spells kw other (t :: ts) (b ++ s ++ r).

(** What the lexer makes of a text: one token after the other, up to the end. *)
Inductive lexes (kw : list bytes) (h : hooks) : lx -> list token -> Prop :=
| lexes_end : forall l l', lex_token kw h l = LTok TEof l' -> lexes kw h l []
| lexes_cons : forall l t l' ts, lex_token kw h l = LTok t l' -> t <> TEof -> lexes kw h l' ts -> lexes kw h l (t :: ts).

(** The keywords are words, each once. *)
Definition keywords_ok (kw : list bytes) : Prop := Forall word kw /\ NoDup kw.

(** The hooks cut out what [other] says. Texts hold no bytes 254 and 255. *)
Definition plain (l : bytes) : Prop := Forall (fun c => c < 254) l.
Definition rest (l : lx) : bytes := match l with None => [] | Some r => r end.
Definition first_other (c : N) : Prop := ~ letter c /\ ~ dec_digit c /\ ~ blank c.
Definition hooks_ok (h : hooks) (other : bytes -> token -> bytes -> Prop) : Prop :=
  (forall t s r, other r t s -> ends t r -> plain (s ++ r) ->
     t <> TEof /\
     exists c u, s = c :: u /\
       ((c = 95 /\ u = [] /\ t = TSpec 95) \/
        (first_other c /\ exists l', spec_char h c (Some (u ++ r)) = LTok t l' /\ rest l' = r))) /\
  (forall c l t l', first_other c -> plain (c :: l) -> spec_char h c (Some l) = LTok t l' ->
     t <> TEof /\ exists u r, l = u ++ r /\ rest l' = r /\ other r t (c :: u) /\ ends t r) /\
  h 95 = None /\ forall r, other r (TSpec 95) [95].

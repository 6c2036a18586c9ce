(** Configurations: how they are written, and what they say. *)
Require Import List Arith NArith ZArith.
Require Import Verif.LexModel Verif.LexSpec Verif.ExprSpec Verif.ConfModel.
Import ListNotations.
Local Open Scope N_scope.
Local Notation bytes := LexModel.bytes.

(** The domain of what stands outside of domains is called main; the two keywords are on and off. *)
Definition outer : bytes := [109; 97; 105; 110].
Definition on_off : list bytes := [[111; 110]; [111; 102; 102]].

(** ** Tokens *)
(** What may follow a backslash: as in expressions, and an e. *)
Definition conf_escapes : list (N * N) := (101, 27) :: escapes.
Inductive conf_string : bytes -> bytes -> Prop :=
| cs_nil : conf_string [] []
| cs_char : forall c v s, c <> 34 -> c <> 92 -> conf_string v s -> conf_string (c :: v) (c :: s)
| cs_escape : forall c x v s, In (c, x) conf_escapes -> conf_string v s -> conf_string (x :: v) (92 :: c :: s).
(** What is between the slash with the star and the star with the slash: a star takes the character that follows it with it. *)
Inductive comment_body : bytes -> Prop :=
| cb_nil : comment_body []
| cb_char : forall c s, c <> 42 -> comment_body s -> comment_body (c :: s)
| cb_star : forall d s, d <> 47 -> comment_body s -> comment_body (42 :: d :: s).
(** [conf_other r t s]: the token [t] is spelled [s], if [r] follows. *)
Inductive conf_other (r : bytes) : token -> bytes -> Prop :=
| co_spec : forall c, punctuation c -> c <> 34 -> c <> 39 -> c <> 47 -> conf_other r (TSpec c) [c]
| co_slash : hd 0 r <> 42 -> hd 0 r <> 47 -> conf_other r (TSpec 47) [47]
| co_str : forall v s, conf_string v s -> conf_other r (T_str v) (34 :: s ++ [34])
| co_char : forall c, c < 128 -> c <> 39 -> c <> 92 -> conf_other r (T_char [c]) [39; c; 39]
| co_char_escape : forall c x, In (c, x) conf_escapes -> conf_other r (T_char [x]) [39; 92; c; 39]
| co_line : forall s, ~ In 10 s -> r = [] \/ hd 0 r = 10 -> conf_other r T_comment (47 :: 47 :: s)
| co_block : forall s, comment_body s -> conf_other r T_comment (47 :: 42 :: s ++ [42; 47])
(** A comment may be left open at the end. *)
| co_open : forall s, comment_body s \/ (exists u, s = u ++ [42] /\ comment_body u) -> r = [] -> conf_other r T_comment (47 :: 42 :: s).

(** The tokens without the comments; none is between a minus and what follows it. *)
Inductive without_comments : list token -> list token -> Prop :=
| wc_nil : without_comments [] []
| wc_comment : forall ts us, without_comments ts us -> without_comments (T_comment :: ts) us
| wc_token : forall t ts us, t <> T_comment -> (t = TSpec 45 -> hd TEof ts <> T_comment) -> without_comments ts us -> without_comments (t :: ts) (t :: us).

(** ** Files *)
Inductive item_tokens : item -> list token -> Prop :=
| it_str : forall s, item_tokens (IStr s) [T_str s]
| it_char : forall c, item_tokens (IChar c) [T_char [c]]
| it_on : item_tokens (IBool true) [TKw 0]
| it_off : item_tokens (IBool false) [TKw 1]
| it_int : forall s, Forall dec_digit s -> positional 10 s < 2 ^ 63 -> item_tokens (IInt (Z.of_N (positional 10 s))) [TDec s]
| it_minus_int : forall s, Forall dec_digit s -> positional 10 s <= 2 ^ 63 -> item_tokens (IInt (- Z.of_N (positional 10 s))) [TSpec 45; TDec s]
| it_real : forall a b, a <> [] -> Forall dec_digit a -> item_tokens (IFloat false (positional 10 (a ++ b)) (N.of_nat (length b))) [TReal (a ++ 46 :: b)]
| it_minus_real : forall a b, Forall dec_digit a -> item_tokens (IFloat true (positional 10 (a ++ b)) (N.of_nat (length b))) [TSpec 45; TReal (a ++ 46 :: b)].
Inductive entry := Command (c : command) | Domain (d : domain).
(** A command is its name, its items and a semicolon. *)
Definition command_tokens (c : command) (ts : list token) : Prop :=
  exists parts, Forall2 item_tokens (snd c) parts /\ ts = TId (fst c) :: concat parts ++ [TSpec 59].
(** A domain is its name, and in braces its commands. It is not called main. *)
Definition entry_tokens (e : entry) (ts : list token) : Prop :=
  match e with
  | Command c => command_tokens c ts
  | Domain d => fst d <> outer /\ exists parts, Forall2 command_tokens (snd d) parts /\ ts = TId (fst d) :: TSpec 123 :: concat parts ++ [TSpec 125]
  end.
Definition file_tokens (es : list entry) (ts : list token) : Prop := exists parts, Forall2 entry_tokens es parts /\ ts = concat parts.
Definition tokens_of (l : bytes) (ts : list token) : Prop := exists us, spells on_off conf_other us l /\ without_comments us ts.
(** The text [l] is a file with these entries; or it lacks the last right brace. *)
Definition written (es : list entry) (l : bytes) : Prop := exists ts, tokens_of l ts /\ file_tokens es ts.
Definition unclosed (es : list entry) (l : bytes) : Prop := exists ts, tokens_of l ts /\ file_tokens es (ts ++ [TSpec 125]).

(** What the file says: the commands outside of domains are those of the domain main. *)
Definition contents (es : list entry) : conf :=
  (outer, flat_map (fun e => match e with Command c => [c] | Domain _ => [] end) es) :: flat_map (fun e => match e with Domain d => [d] | Command _ => [] end) es.

Definition ascii_names {A} (l : list (bytes * A)) : Prop := Forall (fun x => Forall (fun c => c < 128) (fst x)) l.

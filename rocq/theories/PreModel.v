(** * The preprocessor of the lexer (include/mln_lex.h, src/mln_lex.c)

    A lexer with [preprocess] set and no other hooks. The input is a stack of texts, each with its name if it is a file; the character that is given
    back is put in front of the text it came from. Files are a function of their path; directories, paths that start with @, and the search in the
    library are left out. Texts hold no bytes 254 and 255 (lex_bytes_refuted). Macros are kept in a list: the tree finds what is equal (RbProps).
    Handlers call the function for the next token, which calls them: here this is one loop; the depth of the stack of C is left out. Lines are not
    counted. Memory allocation succeeds. *)
Require Import List Arith NArith Bool.
Require Import Verif.Base Verif.LexModel.
Import ListNotations.
Local Open Scope N_scope.

Definition input := list (option bytes * bytes).
Definition same (a b : bytes) : bool := if list_eq_dec N.eq_dec a b then true else false.
(** include/mln_lex.h:259-302 mln_lex_getchar: a text that is used up is dropped. *)
Fixpoint getc (i : input) : option (N * input) :=
  match i with
  | [] => None
  | (n, []) :: r => getc r
  | (n, c :: t) :: r => Some (c, (n, t) :: r)
  end.
(** include/mln_lex.h:701-706, 1072-1076: characters are read while they are as [p] says, and the first that is not is given back. *)
Fixpoint take1 (p : N -> bool) (t : bytes) : bytes * option bytes :=
  match t with
  | [] => ([], None)
  | c :: r => if p c then let (s, x) := take1 p r in (c :: s, x) else ([], Some t)
  end.
Fixpoint take (p : N -> bool) (i : input) : bytes * input :=
  match i with
  | [] => ([], [])
  | (n, t) :: r =>
      match take1 p t with
      | (s, Some t) => (s, (n, t) :: r)
      | (s, None) => let (s', r') := take p r in (s ++ s', r')
      end
  end.

(** src/mln_lex.c:47-53 and include/mln_lex.h:160-163: [level] conditions are open, of which the outer [matched] are met. *)
Record pst := mkP { inp : input; macros : list (bytes * option bytes); level : nat; matched : nat; ignore : bool }.
Definition with_inp (s : pst) (i : input) : pst := mkP i (macros s) (level s) (matched s) (ignore s).
Definition with_macros (s : pst) (m : list (bytes * option bytes)) : pst := mkP (inp s) m (level s) (matched s) (ignore s).
Definition with_if (s : pst) (l m : nat) (g : bool) : pst := mkP (inp s) (macros s) l m g.
Definition lookup (k : bytes) (m : list (bytes * option bytes)) : option (option bytes) := option_map snd (find (fun x => same k (fst x)) m).
(** The files that are being read. *)
Definition names (i : input) : list bytes := concat (map (fun x => match fst x with Some n => [n] | None => [] end) i).

(** One turn of the loop: it goes on, with a token or without; the end of the text; NULL; or a loop that does not end. *)
Inductive turn := Go (s : pst) (t : option token) | End_ (s : pst) | Null | Hang.
Definition emit (s : pst) (t : token) : turn := Go s (if ignore s then None else Some t).

Definition blank (c : N) : bool := (c =? 32) || (c =? 9).
Definition word_char (c : N) : bool := is_letter c || isdigit c.
(** include/mln_lex.h:871-895 and 1010-1037: the name behind #define and #undef. Blanks are skipped, the first character is tested, and all is read up
    to a blank or the end of the line; at the end of the text this does not end. The last character is the blank, and is not given back. *)
Inductive named := NBad | NHang | Named (k : bytes) (c : N) (i : input).
Definition name (i : input) : named :=
  match getc (snd (take blank i)) with
  | None => NBad
  | Some (c, _) =>
      if negb (word_char c) then NBad
      else
        let (k, i) := take (fun c => negb (blank c || (c =? 10))) (snd (take blank i)) in
        match getc i with Some (c, i) => Named k c i | None => NHang end
  end.
(** include/mln_lex.h:913-944: the value, up to the end of the line; a line that ends with a backslash goes on. *)
Fixpoint lines (fuel : nat) (acc : bytes) (i : input) : option (bytes * input) :=
  match fuel with
  | O => None
  | S fuel =>
      let (s, i) := take (fun c => negb (c =? 10)) i in
      let i := match getc i with Some (_, i) => i | None => [] end in
      match rev (acc ++ s) with
      | c :: r => if c =? 92 then lines fuel (rev r) i else Some (acc ++ s, i)
      | [] => Some ([], i)
      end
  end.
Definition total (i : input) : nat := fold_right (fun x n => (length (snd x) + n)%nat) 0%nat i.
Definition value (i : input) : option (option bytes * input) :=
  let i := snd (take blank i) in
  match getc i with
  | None => Some (None, [])
  | Some (c, r) =>
      if c =? 10 then Some (None, r)
      else x <- lines (S (total i)) [] i ;; Some (match fst x with [] => None | v => Some v end, snd x)
  end.
(** include/mln_lex.h:870-961 PREFIX_NAME##_lex_preprocess_define *)
Definition do_define (s : pst) (i : input) : turn :=
  match name i with
  | NBad => Null
  | NHang => Hang
  | Named k c i =>
      if ignore s then Go (with_inp s i) None
      else
        match lookup k (macros s) with
        | Some _ => Null
        | None =>
            match (if c =? 10 then Some (None, i) else value i) with
            | Some (v, i) => Go (with_macros (with_inp s i) ((k, v) :: macros s)) None
            | None => Hang
            end
        end
  end.
(** include/mln_lex.h:1009-1052 PREFIX_NAME##_lex_preprocess_undef *)
Definition do_undef (s : pst) (i : input) : turn :=
  match name i with
  | NBad => Null
  | NHang => Hang
  | Named k _ i => Go (with_macros (with_inp s i) (filter (fun x => negb (same k (fst x))) (macros s))) None
  end.
(** src/mln_lex.c:701-758 mln_lex_condition_test *)
Definition condition (s : pst) (i : input) : option (bool * input) :=
  let i := snd (take blank i) in
  match getc i with
  | None => None
  | Some (c, r) =>
      if c =? 10 then None
      else
        let (k, i) := take word_char (if c =? 33 then r else i) in
        let met := xorb (c =? 33) (match lookup k (macros s) with Some _ => true | None => false end) in
        match getc i with
        | None => Some (met, [])
        | Some (c, i) => if blank c || (c =? 10) then Some (met, i) else None
        end
  end.
(** include/mln_lex.h:962-979 PREFIX_NAME##_lex_preprocess_if *)
Definition do_if (s : pst) (i : input) : turn :=
  if ignore s then Go (with_inp (with_if s (S (level s)) (matched s) true) i) None
  else
    match condition s i with
    | None => Null
    | Some (true, i) => Go (with_inp (with_if s (S (level s)) (S (matched s)) false) i) None
    | Some (false, i) => Go (with_inp (with_if s (S (level s)) (matched s) true) i) None
    end.
(** include/mln_lex.h:980-995 PREFIX_NAME##_lex_preprocess_else *)
Definition do_else (s : pst) (i : input) : turn :=
  if Nat.eqb (level s) 0 then Null
  else if Nat.leb (level s) (matched s) then Go (with_inp (with_if s (level s) (pred (matched s)) true) i) None
  else if Nat.eqb (S (matched s)) (level s) then Go (with_inp (with_if s (level s) (S (matched s)) false) i) None
  else Go (with_inp s i) None.
(** include/mln_lex.h:996-1008 PREFIX_NAME##_lex_preprocess_endif *)
Definition do_endif (s : pst) (i : input) : turn :=
  if Nat.eqb (level s) 0 then Null
  else
    let m := if Nat.eqb (matched s) (level s) then pred (matched s) else matched s in
    Go (with_inp (with_if s (pred (level s)) m (negb (Nat.eqb m (pred (level s))))) i) None.
Section Pre.
Variable files : bytes -> option bytes.
Variable kw : list bytes.
(** include/mln_lex.h:822-869 PREFIX_NAME##_lex_preprocess_include, src/mln_lex.c:597-699 mln_lex_check_file_loop, 437-559
    mln_lex_push_input_file_stream. [files] is what a path stands for, a single file; directories and the search in MELANG_PATH are left out. The C code
    also compares the path with texts in memory on the stack, which is left out: a value would have to be its own path and hold a number sign. *)
Definition do_include (s : pst) (i : input) : turn :=
  match getc (snd (take blank i)) with
  | None => Null
  | Some (c, i) =>
      if negb (c =? 34) then Null
      else
        let (p, i) := take (fun c => negb (c =? 34)) i in
        match getc i with
        | None => Null
        | Some (_, i) =>
            match p with
            | [] => Null
            | _ =>
                match files p with
                | None => Null
                | Some t => if existsb (same p) (names i) then Null else Go (with_inp s ((Some p, t) :: i)) None
                end
            end
        end
  end.
(** include/mln_lex.h:1078-1102: the directive [k], or the macro. *)
Definition directive (s : pst) (k : bytes) (i : input) : turn :=
  if same k [100; 101; 102; 105; 110; 101] then do_define s i
  else if same k [105; 110; 99; 108; 117; 100; 101] then do_include s i
  else if same k [105; 102] then do_if s i
  else if same k [101; 108; 115; 101] then do_else s i
  else if same k [101; 110; 100; 105; 102] then do_endif s i
  else if same k [117; 110; 100; 101; 102] then do_undef s i
  else
    match lookup k (macros s) with
    | Some (Some v) => Go (with_inp s ((None, v) :: i)) None
    | Some None => Go (with_inp s i) None
    | None => Null
    end.
(** include/mln_lex.h:1061-1103 PREFIX_NAME##_nums_handler; [i] is what follows the number sign. A number sign that stands alone is a token of the
    type of the character @, 64. *)
Definition sharp (s : pst) (i : input) : turn :=
  match getc i with
  | Some (c, _) => if negb (word_char c) then emit (with_inp s i) (TSpec 64) else let (k, i) := take word_char i in directive s k i
  | None => emit (with_inp s []) (TSpec 64)
  end.
(** include/mln_lex.h:671-800 PREFIX_NAME##_token, from [beg] to [beg] *)
Definition step (s : pst) : turn :=
  match getc (inp s) with
  | None => End_ (with_inp s [])
  | Some (c, i) =>
      if (c =? 10) || blank c then Go (with_inp s i) None
      else if is_letter c then
        let (k, i) := take word_char i in
        emit (with_inp s i) (if same (c :: k) [95] then TSpec 95 else match keyword kw (c :: k) 0 with Some n => TKw n | None => TId (c :: k) end)
      else if isdigit c then
        let (k, i) := take (fun c => isdigit c || isalpha c || (c =? 46)) i in
        match number (c :: k) with Some t => emit (with_inp s i) t | None => Null end
      else if c =? 35 then sharp s i
      else if special c then emit (with_inp s i) (TSpec c)
      else Null
  end.
(** The tokens up to the end, and how it ends; the state is the last one. *)
Inductive ending := Ended | Failed | Hangs | NoFuel.
Fixpoint lex (fuel : nat) (s : pst) : list token * ending * pst :=
  match fuel with
  | O => ([], NoFuel, s)
  | S fuel =>
      match step s with
      | Go s' None => lex fuel s'
      | Go s' (Some t) => match lex fuel s' with (ts, e, f) => (t :: ts, e, f) end
      | End_ s => ([], Ended, s)
      | Null => ([], Failed, s)
      | Hang => ([], Hangs, s)
      end
  end.
End Pre.
(** src/mln_lex.c:267-381 mln_lex_init: 1 and true are defined; [n] is the name if the text is a file. *)
Definition lexer (n : option bytes) (text : bytes) : pst := mkP [(n, text)] [([49], None); ([116; 114; 117; 101], None)] 0 0 false.

(** Model of src/mln_regexp.c: the regular expression matcher.

    An expression and a text are lists of bytes; the pointer into one of them with the length that remains is the
    list of the bytes that remain.  [char] is signed.  mln_get_length looks at the byte behind the end of the
    expression when nothing remains; its value has no influence.  Texts are shorter than 2^31 bytes.  Allocation
    succeeds.  A length returned by a function is given as the bytes of the text that are left, -1 as [None] inside
    the first component of the result.  The results array is a list of the strings pushed; a NULL pointer is [None].

    A result [None] is the fuel being used up, or a repeat count that does not fit an int. *)
Require Import List Arith NArith ZArith Bool.
Require Import Verif.Base.
Import ListNotations.
Open Scope N_scope.

(** include/mln_regexp.h:13-16 the flags; [f_special] is any bit of M_REGEXP_SPECIAL_MASK. *)
Record flags := mkF { f_square : bool; f_or : bool; f_new : bool; f_special : bool }.
Definition F_none := mkF false false false false.
Definition F_square := mkF true false false false.
Definition F_new := mkF false false true false.
Definition F_special := mkF false false false true.
Definition with_or (f : flags) := mkF (f_square f) true (f_new f) (f_special f).
Definition without_new (f : flags) := mkF (f_square f) (f_or f) false (f_special f).

(** include/mln_regexp.h:18-39 *)
Definition ALPHA := 128%Z.          Definition NOT_ALPHA := 129%Z.
Definition NUM := 130%Z.            Definition NOT_NUM := 131%Z.
Definition WHITESPACE := 132%Z.     Definition NOT_WHITESPACE := 133%Z.
Definition SEPARATOR := 160%Z.
Definition LBRACE := 161%Z.         Definition RBRACE := 162%Z.
Definition LPAR := 163%Z.           Definition RPAR := 164%Z.
Definition LSQUAR := 165%Z.         Definition RSQUAR := 166%Z.
Definition XOR := 167%Z.            Definition STAR := 168%Z.
Definition DOLL := 169%Z.           Definition DOT := 170%Z.
Definition QUES := 171%Z.           Definition PLUS := 172%Z.
Definition SUB := 173%Z.            Definition OR := 174%Z.

(** A byte as a [char]. *)
Definition schar (b : N) : Z := if b <? 128 then Z.of_N b else (Z.of_N b - 256)%Z.

(** include/mln_utils.h:169-173 *)
Definition isalpha (x : Z) : bool := (((97 <=? x) && (x <=? 122)) || ((65 <=? x) && (x <=? 90)))%Z.
Definition isdigit (x : Z) : bool := ((48 <=? x) && (x <=? 57))%Z.
Definition iswhitespace (x : Z) : bool :=
  ((x =? 32) || (x =? 9) || (x =? 10) || (x =? 12) || (x =? 13) || (x =? 11))%Z.

(** src/mln_regexp.c:793-817 a character after a backslash *)
Definition escaped (b : N) : Z :=
  if b =? 110 then 10%Z
  else if b =? 116 then 9%Z
  else if b =? 119 then ALPHA
  else if b =? 87 then NOT_ALPHA
  else if b =? 100 then NUM
  else if b =? 68 then NOT_NUM
  else if b =? 115 then WHITESPACE
  else if b =? 83 then NOT_WHITESPACE
  else schar b.

(** src/mln_regexp.c:819-857 a character that stands for itself or for an operator *)
Definition unescaped (square : bool) (b : N) : Z :=
  if b =? 123 then LBRACE
  else if b =? 125 then RBRACE
  else if b =? 40 then LPAR
  else if b =? 41 then RPAR
  else if b =? 91 then LSQUAR
  else if b =? 93 then RSQUAR
  else if b =? 94 then XOR
  else if b =? 42 then STAR
  else if b =? 36 then DOLL
  else if b =? 46 then DOT
  else if b =? 63 then QUES
  else if b =? 43 then PLUS
  else if b =? 45 then (if square then SUB else schar b)
  else if b =? 124 then OR
  else schar b.

(** src/mln_regexp.c:790-858 mln_get_char *)
Definition get_char (f : flags) (s : list N) : Z :=
  match s with
  | [] => 0%Z
  | b :: r =>
      if b =? 92 then match r with [] => schar b | e :: _ => escaped e end else unescaped (f_square f) b
  end.

(** src/mln_regexp.c:860-880 mln_get_length *)
Definition get_length (s : list N) : nat :=
  match s with b :: _ :: _ => if b =? 92 then 2%nat else 1%nat | _ => 1%nat end.

(** The expression behind its first character. *)
Definition next (s : list N) : list N := skipn (get_length s) s.

(** src/mln_regexp.c:76-81 and 98-103: the part of the expression that starts with the bracket closing the first
    one; [None] when there is none. *)
Fixpoint find_close (n : nat) (f : flags) (l r : Z) (count : Z) (s : list N) : option (list N) :=
  match n with
  | O => None
  | S n' =>
      match s with
      | [] => None
      | _ =>
          let c := get_char f s in
          let count := if (c =? l)%Z then (count + 1)%Z else count in
          if (c =? r)%Z then
            if (count - 1 =? 0)%Z then Some s else find_close n' f l r (count - 1) (next s)
          else find_close n' f l r count (next s)
      end
  end.
(** src/mln_regexp.c:327-332, 334-339, 372-377 and the like: the part behind the closing bracket, [] when there is none. *)
Definition behind_close (f : flags) (l r : Z) (s : list N) : list N :=
  match find_close (length s) f l r 0 s with Some t => next t | None => [] end.

(** src/mln_regexp.c:422-498 mln_adjust_or_pos: the part behind the alternatives that follow.  In the branch for a
    brace the parentheses are counted, as in the code. *)
Fixpoint adjust_or_pos (n : nat) (f : flags) (s : list N) : option (list N) :=
  match n with
  | O => None
  | S n' =>
      match s with
      | [] => Some []
      | _ =>
          let c := get_char f s in
          let s := if (c =? LSQUAR)%Z then behind_close f LSQUAR RSQUAR s
                   else if (c =? LPAR)%Z then behind_close f LPAR RPAR s
                   else next s in
          match s with
          | [] => Some []
          | _ =>
              let c := get_char f s in
              let s := if ((c =? STAR) || (c =? QUES) || (c =? PLUS))%Z then next s
                       else if f_square f && (c =? SUB)%Z then next (next s)
                       else if (c =? LBRACE)%Z then behind_close f LPAR RPAR s
                       else s in
              match s with
              | [] => Some []
              | _ => if (get_char f s =? OR)%Z then adjust_or_pos n' f (next s) else Some s
              end
          end
      end
  end.

(** What is pushed to the results array, and a result of the matching functions. *)
Definition found := option (list (list N)).
Definition push (m : found) (s : list N) : found := option_map (fun l => l ++ [s]) m.
Definition res := option (option (list N) * found).
Definition matcher := flags -> list N -> list N -> found -> res.
(** The bytes of [text] before [left]. *)
Definition before (text left : list N) : list N := firstn (length text - length left) text.
Definition ok {A} (x : option A) : bool := match x with Some _ => true | None => false end.

Section Functions.
Variable here : matcher.

(** src/mln_regexp.c:309-411 mln_process_or.  The result holds the return value, the expression and the text. *)
Fixpoint process_or (n : nat) (f : flags) (last loop : bool) (rv : Z) (rexp text : list N) (m : found)
    : option (Z * list N * list N * found) :=
  match n with
  | O => None
  | S n' =>
      let c := get_char f rexp in
      let bracket := ((c =? LSQUAR) || (c =? LPAR))%Z in
      if negb bracket && last && ((c =? OR)%Z || (length rexp =? 0)%nat) then
        r <- adjust_or_pos (S (length rexp)) f (match rexp with [] => [] | _ => next rexp end) ;;
        Some (rv, r, text, m)
      else
        let left := if (c =? LSQUAR)%Z then behind_close f LSQUAR RSQUAR rexp
                    else if (c =? LPAR)%Z then behind_close f LPAR RPAR rexp
                    else next rexp in
        let c := get_char f left in
        let left := match left with
                    | [] => []
                    | _ => if ((c =? STAR) || (c =? QUES) || (c =? PLUS))%Z then next left
                           else if f_square f && (c =? SUB)%Z then next (next left)
                           else if (c =? LBRACE)%Z then behind_close f LBRACE RBRACE left
                           else left
                    end in
        let alt := match left with [] => false | _ => (get_char f left =? OR)%Z end in
        if negb alt && negb loop then Some (rv, rexp, text, m)
        else
          let rv := if alt then 1%Z else rv in
          r <- here (with_or f) (before rexp left) text m ;;
          let rexp := if alt then next left else left in
          match fst r with
          | Some t => rexp <- adjust_or_pos (S (length rexp)) f rexp ;; Some (rv, rexp, t, snd r)
          | None =>
              if alt then process_or n' f true true rv rexp text (snd r)
              else Some ((-1)%Z, rexp, text, snd r)
          end
  end.

(** src/mln_regexp.c:518-590 the loop of mln_match_square; [true] is a result that is not negative. *)
Fixpoint square_loop (n : nat) (reverse : bool) (regexp text : list N) (m : found) : option (bool * list N * found) :=
  match n with
  | O => None
  | S n' =>
      let finish :=
        if reverse then match text with [] => Some (false, text, m) | _ :: t => Some (true, t, m) end
        else match text with [] => Some (true, text, m) | _ => Some (false, text, m) end in
      match regexp with
      | [] => finish
      | _ =>
          let c := get_char F_square regexp in
          let try regexp' :=
            match text with
            | [] => Some (false, text, m)
            | _ =>
                r <- here F_square (before regexp regexp') text m ;;
                match fst r with
                | Some t => if reverse then Some (false, text, snd r) else Some (true, t, snd r)
                | None => square_loop n' reverse regexp' text (snd r)
                end
            end in
          if (c =? RSQUAR)%Z then finish
          else
            let end_c := if (c =? LBRACE)%Z then RBRACE else if (c =? LPAR)%Z then RPAR
                         else if (c =? LSQUAR)%Z then RSQUAR else 0%Z in
            if (end_c =? 0)%Z then
              if (SEPARATOR <? c)%Z then square_loop n' reverse (next regexp) text m
              else
                let t := next regexp in
                try (if (1 <? length t)%nat && (get_char F_square t =? SUB)%Z then next (next t) else t)
            else
              match find_close (length regexp) F_square c end_c 0 regexp with
              | None => Some (false, text, m)
              | Some t =>
                  (* the closing bracket is looked for while more than one byte remains *)
                  if (length t <=? 1)%nat then Some (false, text, m)
                  else if (length regexp - length (next t) =? 2)%nat then square_loop n' reverse (next t) text m
                  else try (next t)
              end
      end
  end.
(** src/mln_regexp.c:500-602 mln_match_square *)
Definition match_square (n : nat) (regexp text : list N) (m : found) : option (bool * list N * found) :=
  let regexp := next regexp in
  if (get_char F_square regexp =? XOR)%Z then square_loop n true (next regexp) text m
  else square_loop n false regexp text m.

(** src/mln_regexp.c:604-625 mln_match_get_limit: [val += (val * 10 + digit)] adds the old value once more. *)
Fixpoint limit_value (val : Z) (s : list N) : option (Z * option (list N)) :=
  match s with
  | [] => Some (val, None)
  | b :: r =>
      if b =? 44 then Some (val, Some r)
      else
        let v := (val + (val * 10 + (schar b - 48)))%Z in
        if (v <? 2 ^ 31)%Z then limit_value v r else None
  end.
(** The second loop takes a comma for a digit; there is none when it is called. *)
Definition match_get_limit (s : list N) : option (Z * Z) :=
  r <- limit_value 0 s ;;
  match snd r with
  | None => Some (fst r, fst r)
  | Some rest => t <- limit_value 0 rest ;; Some (fst r, if (fst t =? 0)%Z then (-1)%Z else fst t)
  end.

(** src/mln_regexp.c:127-155 the loop over what follows a brace: the part that starts with the closing brace, the
    number of parts and whether there is a digit; [None] is a return of -1. *)
Fixpoint brace_scan (n : nat) (f : flags) (count part : Z) (existent : bool) (s : list N)
    : option (list N * Z * bool) :=
  match n with
  | O => None
  | S n' =>
      match s with
      | [] => None
      | _ =>
          let c := get_char f s in
          if (c =? 44)%Z then brace_scan n' f count (part + 1) existent (next s)
          else if (c =? LBRACE)%Z then brace_scan n' f (count + 1) part existent (next s)
          else if (c =? RBRACE)%Z then
            if (count - 1 =? 0)%Z then Some (s, part, existent)
            else brace_scan n' f (count - 1) part existent (next s)
          else if negb (isdigit c) then None
          else brace_scan n' f count part true (next s)
      end
  end.

(** One step of the loops over a single character: the character itself, or a dot. *)
Definition one (mregexp text : list N) (m : found) : option (bool * found) :=
  match text with
  | [] => Some (false, m)
  | _ =>
      r <- here F_special mregexp text m ;;
      if ok (fst r) then Some (true, snd r)
      else r <- here F_special mregexp [170] (snd r) ;; Some (ok (fst r), snd r)
  end.

(** src/mln_regexp.c:639-660 the loop of mln_match_star over a longer operand *)
Fixpoint star_loop (n : nat) (any : bool) (mregexp regexp text : list N) (m : found) : res :=
  match n with
  | O => None
  | S n' =>
      r <- here F_none mregexp text m ;;
      match fst r with
      | None =>
          match regexp with
          | [] => Some (if any then Some text else None, snd r)
          | _ =>
              r <- here F_none regexp text (snd r) ;;
              Some (match fst r with None => if any then Some text else None | t => t end, snd r)
          end
      | Some t =>
          match t with
          | _ :: _ => star_loop n' true mregexp regexp t (snd r)
          | [] => match regexp with [] => Some (Some [], snd r) | _ => here F_none regexp t (snd r) end
          end
      end
  end.
(** src/mln_regexp.c:662-674 the loop over a single character; [rec] is the last place where the rest matched. *)
Fixpoint star_chars (n : nat) (mregexp regexp text : list N) (rec : option (list N)) (m : found)
    : option (list N * option (list N) * found) :=
  match n with
  | O => None
  | S n' =>
      r <- one mregexp text m ;;
      match text with
      | [] => Some (text, rec, snd r)
      | _ :: t =>
          if fst r then
            match regexp with
            | [] => star_chars n' mregexp regexp t rec (snd r)
            | _ =>
                q <- here F_none regexp t None ;;
                star_chars n' mregexp regexp t (if ok (fst q) then Some t else rec) (snd r)
            end
          else Some (text, rec, snd r)
      end
  end.
(** src/mln_regexp.c:627-684 mln_match_star *)
Definition match_star (n : nat) (mregexp regexp text : list N) (m : found) : res :=
  match text with
  | [] => Some (Some [], m)
  | _ =>
      if (1 <? length mregexp)%nat then star_loop n false mregexp regexp text m
      else
        r <- star_chars n mregexp regexp text None m ;;
        let '(t, rec, m) := r in
        match regexp with
        | [] => Some (Some t, m)
        | _ => here F_none regexp (match rec with Some t => t | None => t end) m
        end
  end.

(** src/mln_regexp.c:695-709 the loop of mln_match_plus over a longer operand *)
Fixpoint plus_loop (n : nat) (any : bool) (mregexp regexp text : list N) (m : found) : res :=
  match n with
  | O => None
  | S n' =>
      r <- here F_none mregexp text m ;;
      match fst r with
      | None => if any then here F_none regexp text (snd r) else Some (None, snd r)
      | Some t =>
          match t with
          | _ :: _ => plus_loop n' true mregexp regexp t (snd r)
          | [] => match regexp with [] => Some (Some [], snd r) | _ => here F_none regexp t (snd r) end
          end
      end
  end.
(** src/mln_regexp.c:711-718 and 772-780 the loop over a single character: how many there were. *)
Fixpoint chars (n : nat) (max : Z) (mregexp text : list N) (count : Z) (m : found) : option (list N * Z * found) :=
  match n with
  | O => None
  | S n' =>
      r <- one mregexp text m ;;
      match text with
      | [] => Some (text, count, snd r)
      | _ :: t =>
          if fst r then
            if ((0 <? max) && (max <=? count + 1))%Z then Some (t, (count + 1)%Z, snd r)
            else chars n' max mregexp t (count + 1) (snd r)
          else Some (text, count, snd r)
      end
  end.
(** src/mln_regexp.c:686-725 mln_match_plus *)
Definition match_plus (n : nat) (mregexp regexp text : list N) (m : found) : res :=
  if (1 <? length mregexp)%nat then plus_loop n false mregexp regexp text m
  else
    r <- chars n 0 mregexp text 0 m ;;
    let '(t, count, m) := r in
    if (0 <? count)%Z then match t with [] => Some (Some [], m) | _ => here F_none regexp t m end
    else Some (None, m).

(** src/mln_regexp.c:727-746 mln_match_question *)
Definition match_question (mregexp regexp text : list N) (m : found) : res :=
  if (1 <? length mregexp)%nat then
    r <- here F_none mregexp text m ;;
    here F_none regexp (match fst r with Some t => t | None => text end) (snd r)
  else
    r <- here F_special mregexp text m ;;
    here F_none regexp (if ok (fst r) then tl text else text) (snd r).

(** src/mln_regexp.c:758-770 the loop of mln_match_brace over a longer operand *)
Fixpoint brace_loop (n : nat) (min max count : Z) (mregexp regexp text : list N) (m : found) : res :=
  match n with
  | O => None
  | S n' =>
      r <- here F_none mregexp text m ;;
      match fst r with
      | None =>
          if (length regexp =? 0)%nat || (count <? min)%Z then Some (None, snd r)
          else here F_none regexp text (snd r)
      | Some t =>
          let count := (count + 1)%Z in
          if negb (length t =? 0)%nat && ((max <? 0)%Z || (count <? max)%Z)
          then brace_loop n' min max count mregexp regexp t (snd r)
          else if (length t =? 0)%nat && (length regexp =? 0)%nat then Some (Some [], snd r)
          else here F_none regexp t (snd r)
      end
  end.
(** src/mln_regexp.c:748-788 mln_match_brace *)
Definition match_brace (n : nat) (min max : Z) (mregexp regexp text : list N) (m : found) : res :=
  if (1 <? length mregexp)%nat then brace_loop n min max 0 mregexp regexp text m
  else
    r <- chars n max mregexp text 0 m ;;
    let '(t, count, m) := r in
    if (min <=? count)%Z then
      if negb (length t =? 0)%nat || negb (length regexp =? 0)%nat then here F_none regexp t m else Some (Some t, m)
    else Some (None, m).

(** src/mln_regexp.c:70-113 the length of the first operand: a bracket reaches to the one that closes it.
    [Some None] is a return of -1; an empty pair of brackets is told apart by the caller. *)
Definition operand (f : flags) (regexp : list N) : option (list N) :=
  let c := get_char f regexp in
  if (c =? LPAR)%Z then option_map next (find_close (length regexp) f LPAR RPAR 0 regexp)
  else if (c =? LSQUAR)%Z then option_map next (find_close (length regexp) f LSQUAR RSQUAR 0 regexp)
  else Some (next regexp).

(** src/mln_regexp.c:115-173 the operators behind an operand: [Some None] when there is none. *)
Definition repeated (n : nat) (f : flags) (mregexp rest text : list N) (m : found) : option (option (option (list N) * found)) :=
  match rest with
  | [] => Some None
  | _ =>
      let c := get_char f rest in
      if (c =? STAR)%Z then r <- match_star n mregexp (next rest) text m ;; Some (Some r)
      else if (c =? PLUS)%Z then r <- match_plus n mregexp (next rest) text m ;; Some (Some r)
      else if (c =? QUES)%Z then r <- match_question mregexp (next rest) text m ;; Some (Some r)
      else if (c =? LBRACE)%Z then
        match brace_scan (length rest) f 0 1 false rest with
        | None => Some (Some (None, m))
        | Some (s, part, existent) =>
            if negb existent || (2 <? part)%Z then Some (Some (None, m))
            else
              l <- match_get_limit (before (next rest) s) ;;
              let '(min, max) := l in
              if ((0 <? max) && (max <? min))%Z then Some (Some (None, m))
              else r <- match_brace n min max mregexp (next s) text m ;; Some (Some r)
        end
      else Some None
  end.

(** The classes of characters, src/mln_regexp.c:197-263: whether [c0] is one of them and what it accepts. *)
Definition class (c0 : Z) : option (Z -> bool) :=
  if (c0 =? NUM)%Z then Some isdigit
  else if (c0 =? NOT_NUM)%Z then Some (fun x => negb (isdigit x))
  else if (c0 =? ALPHA)%Z then Some isalpha
  else if (c0 =? NOT_ALPHA)%Z then Some (fun x => negb (isalpha x))
  else if (c0 =? WHITESPACE)%Z then Some iswhitespace
  else if (c0 =? NOT_WHITESPACE)%Z then Some (fun x => negb (iswhitespace x))
  else if (c0 =? DOT)%Z then Some (fun _ => true)
  else None.

(** src/mln_regexp.c:183-195 a range inside square brackets: [Some b] is its answer. *)
Definition in_range (f : flags) (c0 : Z) (rest text : list N) : option bool :=
  match text with
  | [] => None
  | t :: _ =>
      if f_square f && (1 <? length rest)%nat && (get_char f rest =? SUB)%Z
      then Some ((c0 <=? schar t)%Z && (schar t <=? get_char f (next rest))%Z)
      else None
  end.

(** src/mln_regexp.c:267-304 the end of mln_match_here: brackets and plain characters. *)
Definition simple (n : nat) (f : flags) (c0 : Z) (regexp after text : list N) (m : found) : res :=
  if (c0 =? LSQUAR)%Z then
    r <- match_square n (before regexp after) text m ;;
    let '(good, t, m) := r in
    if good then here f after t m else Some (None, m)
  else if (c0 =? LPAR)%Z then
    let inner := before regexp after in
    r <- here F_new (firstn (length inner - 2) (next inner)) text m ;;
    match fst r with
    | None => Some (None, snd r)
    | Some more => here f after more (push (snd r) (before text more))
    end
  else
    match text with
    | [] => Some (None, m)
    | t :: rest =>
        if (c0 =? Z.of_N t)%Z then
          if f_special f then Some (Some text, m) else here f (next regexp) rest m
        else Some (None, m)
    end.

(** src/mln_regexp.c:49-307 mln_match_here, where [here] stands for a jump to the label again as well. *)
Definition here_step (n : nat) (f : flags) (regexp text : list N) (m : found) : res :=
  match regexp with
  | [] => Some (Some text, m)
  | _ =>
      let c0 := get_char f regexp in
      if f_special f then simple n f c0 regexp (next regexp) text m
      else
        o <- (if f_or f then Some (0%Z, regexp, text, m) else process_or n f false false 0 regexp text m) ;;
        let '(rv, regexp', text', m) := o in
        if (rv <? 0)%Z then Some (None, m)
        else if (0 <? rv)%Z then here f regexp' text' m
        else
          match operand f regexp with
          | None => Some (None, m)
          | Some after =>
              if ((c0 =? LPAR) || (c0 =? LSQUAR))%Z && (length regexp - length after =? 2)%nat then here f after text m
              else
                q <- repeated n f (before regexp after) after text m ;;
                match q with
                | Some r => Some r
                | None =>
                    if (c0 =? XOR)%Z && f_new f then here f (next regexp) text m
                    else
                      let f := without_new f in
                      if (c0 =? DOLL)%Z then Some (match text with [] => Some [] | _ => None end, m)
                      else
                        match in_range f c0 (next regexp) text with
                        | Some b => Some (if b then Some (tl text) else None, m)
                        | None =>
                            match class c0, text with
                            | Some p, t :: rest =>
                                if p (schar t) then here f (next regexp) rest m else Some (None, m)
                            | _, _ => simple n f c0 regexp after text m
                            end
                        end
                end
          end
  end.
End Functions.

(** src/mln_regexp.c:49-307 mln_match_here *)
Fixpoint match_here (n : nat) (f : flags) (regexp text : list N) (m : found) : res :=
  match n with
  | O => None
  | S n' => here_step (match_here n') n' f regexp text m
  end.

(** src/mln_regexp.c:882-913 mln_reg_match: the results array afterwards; its length is the number returned. *)
Fixpoint match_loop (n : nat) (fuel : nat) (exp p : list N) (m : list (list N)) : option (list (list N)) :=
  match n with
  | O => None
  | S n' =>
      r <- match_here fuel F_new exp p (Some m) ;;
      let m := match snd r with Some m => m | None => [] end in
      match fst r with
      | None =>
          match exp, p with
          | b :: _, _ :: t => if b =? 94 then Some m else match_loop n' fuel exp t m
          | _, _ => Some m
          end
      | Some more =>
          if (length p =? length more)%nat then Some m
          else
            let m := m ++ [before p more] in
            if (length exp <=? length more)%nat then match_loop n' fuel exp more m else Some m
      end
  end.
Definition reg_match (fuel : nat) (exp text : list N) (m : list (list N)) : option (list (list N)) :=
  match_loop (length text + 1) fuel exp text m.

(** src/mln_regexp.c:915-934 mln_reg_equal: the number returned. *)
Fixpoint equal_loop (fuel : nat) (exp p : list N) : option Z :=
  r <- match_here fuel F_new exp p None ;;
  match fst r with
  | None =>
      match exp, p with
      | b :: _, _ :: t => if b =? 94 then Some (-1)%Z else equal_loop fuel exp t
      | _, _ => Some (-1)%Z
      end
  | Some more =>
      Some (if negb (length more =? 0)%nat && negb (length exp =? 0)%nat && negb (last exp 0 =? 36)
            then 0%Z else Z.of_nat (length more))
  end.
Definition reg_equal (fuel : nat) (exp text : list N) : option Z := equal_loop fuel exp text.

(** What a regular expression means, without reference to the matcher. *)
Require Import List Arith NArith ZArith Bool.
Import ListNotations.
Open Scope N_scope.

(** The characters that stand for something else than themselves: \ { } ( ) [ ] ^ * $ . ? + - | *)
Definition special (c : N) : bool := existsb (N.eqb c) [92; 123; 125; 40; 41; 91; 93; 94; 42; 36; 46; 63; 43; 45; 124].
(** A character as it is written in an expression: with a backslash when it is special. *)
Definition quote (c : N) : list N := if special c then [92; c] else [c].

Inductive kind := Digit | Letter | Space.
Definition in_kind (k : kind) (b : N) : bool :=
  match k with
  | Digit => (48 <=? b) && (b <=? 57)
  | Letter => ((97 <=? b) && (b <=? 122)) || ((65 <=? b) && (b <=? 90))
  | Space => (b =? 32) || ((9 <=? b) && (b <=? 13))
  end.
(** \d \D \w \W \s \S *)
Definition kind_letter (k : kind) (inside : bool) : N :=
  match k, inside with
  | Digit, true => 100 | Digit, false => 68
  | Letter, true => 119 | Letter, false => 87
  | Space, true => 115 | Space, false => 83
  end.

(** What stands between square brackets, and what matches one character. *)
Inductive member := One (c : N) | Range (a z : N) | Kind (k : kind) (inside : bool).
Inductive atom := Lit (c : N) | Any | Class (k : kind) (inside : bool) | Set_of (inside : bool) (ms : list member).

Definition maccepts (x : member) (b : N) : bool :=
  match x with
  | One c => b =? c
  | Range a z => (a <=? b) && (b <=? z)
  | Kind k inside => Bool.eqb (in_kind k b) inside
  end.
Definition accepts (x : atom) (b : N) : bool :=
  match x with
  | Lit c => b =? c
  | Any => true
  | Class k inside => Bool.eqb (in_kind k b) inside
  | Set_of inside ms => Bool.eqb (existsb (fun x => maccepts x b) ms) inside
  end.

(** How they are written. *)
Definition mwritten (x : member) : list N :=
  match x with
  | One c => quote c
  | Range a z => quote a ++ [45] ++ quote z
  | Kind k inside => [92; kind_letter k inside]
  end.
Definition written (x : atom) : list N :=
  match x with
  | Lit c => quote c
  | Any => [46]
  | Class k inside => [92; kind_letter k inside]
  | Set_of inside ms => [91] ++ (if inside then [] else [94]) ++ concat (map mwritten ms) ++ [93]
  end.

(** Characters of the expression are below 128, and a set has a member. *)
Definition mwf (x : member) : Prop :=
  match x with One c => c < 128 | Range a z => a < 128 /\ z < 128 | Kind _ _ => True end.
Definition wf (x : atom) : Prop :=
  match x with Lit c => c < 128 | Set_of _ ms => ms <> [] /\ Forall mwf ms | _ => True end.

(** Repetition: the least and the greatest number of times, and how it is written. *)
Inductive op := Star | Plus | Opt | Exactly (n : nat) | AtLeast (n : nat) | AtMost (n : nat) | Between (n m : nat).
Definition bounds (o : op) : nat * option nat :=
  match o with
  | Star => (0, None)%nat
  | Plus => (1, None)%nat
  | Opt => (0, Some 1)%nat
  | Exactly n => (n, Some n)
  | AtLeast n => (n, None)
  | AtMost n => (0%nat, Some n)
  | Between n m => (n, Some m)
  end.
Definition digit (n : nat) : N := 48 + N.of_nat n.
Definition op_written (o : op) : list N :=
  match o with
  | Star => [42]
  | Plus => [43]
  | Opt => [63]
  | Exactly n => [123; digit n; 125]
  | AtLeast n => [123; digit n; 44; 125]
  | AtMost n => [123; 44; digit n; 125]
  | Between n m => [123; digit n; 44; digit m; 125]
  end.

(** Expressions in which only the last atom may be repeated, possibly between ^ and $. *)
Record pattern := mkPat { caret : bool; body : list atom; rep : option (atom * op); dollar : bool }.
Definition pwritten (p : pattern) : list N :=
  (if caret p then [94] else []) ++ concat (map written (body p))
    ++ match rep p with Some (a, o) => written a ++ op_written o | None => [] end
    ++ (if dollar p then [36] else []).

(** The strings an expression stands for. *)
Definition lang (p : pattern) (s : list N) : Prop :=
  exists s1 s2, s = s1 ++ s2 /\ Forall2 (fun x b => accepts x b = true) (body p) s1 /\
    match rep p with
    | None => s2 = []
    | Some (a, o) =>
        Forall (fun b => accepts a b = true) s2 /\ (fst (bounds o) <= length s2)%nat /\
        match snd (bounds o) with Some m => (length s2 <= m)%nat | None => True end
    end.
(** [s] at the beginning of a text, [after] behind it. *)
Definition matches_at (p : pattern) (s after : list N) : Prop := lang p s /\ (dollar p = true -> after = []).
(** Somewhere in the text. *)
Definition occurs (p : pattern) (text : list N) : Prop :=
  exists u s w, text = u ++ s ++ w /\ matches_at p s w /\ (caret p = true -> u = []).

(** The longest match at the beginning, and the first place that has one. *)
Definition longest_at (p : pattern) (s after : list N) : Prop :=
  matches_at p s after /\
  forall s' after', s' ++ after' = s ++ after -> matches_at p s' after' -> (length s' <= length s)%nat.
Definition none_at (p : pattern) (text : list N) : Prop := forall s after, text = s ++ after -> ~ matches_at p s after.
Definition leftmost (p : pattern) (text u s w : list N) : Prop :=
  text = u ++ s ++ w /\ longest_at p s w /\ forall u1 u2, u = u1 ++ u2 -> u2 <> [] -> none_at p (u2 ++ s ++ w).

(** Matches taken from a text one after the other, each the leftmost and longest in what the one before left over. *)
Inductive successive (p : pattern) : list N -> list (list N) -> Prop :=
| successive_none text : successive p text []
| successive_one text u s w l :
    leftmost p text u s w -> s <> [] -> successive p w l -> successive p text (s :: l).

(** Repetitions for which the code works: of a single byte; + of every atom, ? of every atom but the dot.  Bounds
    have one digit, and the upper one is not 0. *)
Definition single (a : atom) : Prop := match a with Lit c => special c = false | Any => True | _ => False end.
Definition usable (a : atom) (o : op) : Prop :=
  wf a /\
  match o with
  | Star => single a
  | Plus => True
  | Opt => a <> Any
  | Exactly n => single a /\ (1 <= n <= 9)%nat
  | AtLeast n => single a /\ (n <= 9)%nat
  | AtMost n => single a /\ (1 <= n <= 9)%nat
  | Between n m => single a /\ (1 <= m <= 9)%nat /\ (n <= m)%nat
  end.
Definition pattern_ok (p : pattern) : Prop :=
  Forall wf (body p) /\ match rep p with Some (a, o) => usable a o | None => True end.

(** The occurrences of a sequence of atoms, each one behind the one before. *)
Fixpoint fits (ps : list atom) (text : list N) : bool :=
  match ps, text with
  | [], _ => true
  | a :: ps, b :: text => accepts a b && fits ps text
  | _, [] => false
  end.
Fixpoint occurrences (n : nat) (ps : list atom) (text : list N) : list (list N) :=
  match n, text with
  | S n', _ :: t =>
      if fits ps text then firstn (length ps) text :: occurrences n' ps (skipn (length ps) text)
      else occurrences n' ps t
  | _, _ => []
  end.

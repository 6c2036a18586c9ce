(** The number a literal denotes. *)
Require Import List NArith ZArith Bool.
Import ListNotations.
Open Scope N_scope.

(** Value of a character in the usual digit alphabet; [None] for other characters. *)
Definition digit_of (c : N) : option N :=
  if (48 <=? c) && (c <=? 57) then Some (c - 48)
  else if (97 <=? c) && (c <=? 102) then Some (c - 87)
  else if (65 <=? c) && (c <=? 70) then Some (c - 55)
  else None.

(** Positional value of a text in a base, most significant digit first; [None] if a character is not a digit of the base. *)
Fixpoint numeral (base : N) (acc : N) (s : list N) : option N :=
  match s with
  | [] => Some acc
  | c :: t => match digit_of c with
              | Some v => if v <? base then numeral base (acc * base + v) t else None
              | None => None
              end
  end.

(** With a sign in front. *)
Definition signed (minus : bool) (n : N) : Z := if minus then (- Z.of_N n)%Z else Z.of_N n.
Definition sign_text (minus : bool) : list N := if minus then [45] else [].

(** Independent specifications for the string routines. *)
Require Import List Arith NArith ZArith.
Import ListNotations.

(** [p] occurs in [t] at position [i]. *)
Definition occurs_at (t p : list N) (i : nat) : Prop := exists a b, t = a ++ p ++ b /\ length a = i.
(** [i] is the leftmost occurrence. *)
Definition first_occurrence (t p : list N) (i : nat) : Prop :=
  occurs_at t p i /\ forall j, occurs_at t p j -> i <= j.

(** [pieces] are the maximal runs of non-separators of [s], in order: [s] is the pieces interleaved with separator
    runs, the inner separator runs being non-empty. *)
Inductive runs (sep : N -> Prop) : list N -> list (list N) -> Prop :=
| runs_end g : Forall sep g -> runs sep g []
| runs_last g p : Forall sep g -> p <> [] -> Forall (fun c => ~ sep c) p -> runs sep (g ++ p) [p]
| runs_cons g p c s ps : Forall sep g -> p <> [] -> Forall (fun c => ~ sep c) p -> sep c ->
    runs sep (c :: s) ps -> runs sep (g ++ p ++ c :: s) (p :: ps).

(** [m] is what remains of [s] after removing the longest mask prefix and suffix. *)
Definition trimmed (mask : N -> Prop) (s m : list N) : Prop :=
  exists a b, s = a ++ m ++ b /\ Forall mask a /\ Forall mask b /\
    (forall c t, m = c :: t -> ~ mask c) /\ (forall c t, m = t ++ [c] -> ~ mask c).

(** What a comparison must satisfy to order a search tree. *)
Record total_order {A} (cmp : A -> A -> Z) : Prop := {
  to_eq : forall a b, cmp a b = 0%Z <-> a = b;
  to_antisym : forall a b, (cmp a b < 0 <-> 0 < cmp b a)%Z;
  to_trans : forall a b c, (cmp a b < 0 -> cmp b c < 0 -> cmp a c < 0)%Z }.

(** Lexicographic order on byte strings. *)
Inductive lex_lt : list N -> list N -> Prop :=
| lex_nil y b : lex_lt [] (y :: b)
| lex_head x y a b : (x < y)%N -> lex_lt (x :: a) (y :: b)
| lex_tail x a b : lex_lt a b -> lex_lt (x :: a) (x :: b).

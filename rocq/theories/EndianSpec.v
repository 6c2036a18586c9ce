(** The number a byte string denotes, most significant byte first. *)
Require Import List NArith.
Import ListNotations.
Open Scope N_scope.
Fixpoint be_value (l : list N) : N :=
  match l with [] => 0 | b :: t => b * 256 ^ N.of_nat (length t) + be_value t end.

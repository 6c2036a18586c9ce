(** What the operators of integers should be. *)
Require Import ZArith Bool List.
Require Import Verif.LintModel.
Open Scope Z_scope.

(** The integers of the language *)
Definition int64 (z : Z) : Prop := - 9223372036854775808 <= z <= 9223372036854775807.
(** The bits of a number of 64 bits, in two's complement: bit [n] of [a] for [n] below 63, and the sign *)
Definition bits (f : bool -> bool -> bool) (a b c : Z) : Prop := forall n, 0 <= n -> Z.testbit c n = f (Z.testbit a n) (Z.testbit b n).
(** The integer that an operator gives, in integers without a bound *)
Definition exact (o : bop) (a b c : Z) : Prop :=
  match o with
  | Plus => c = a + b
  | Sub => c + b = a
  | Mul => c = a * b
  (** towards zero *)
  | Div => exists r, a = b * c + r /\ Z.abs r < Z.abs b /\ (r = 0 \/ (0 < a <-> 0 < r))
  | Mod => exists q, a = b * q + c /\ Z.abs c < Z.abs b /\ (c = 0 \/ (0 < a <-> 0 < c))
  | Lmov => c = a * 2 ^ b
  | Rmov => c * 2 ^ b <= a < (c + 1) * 2 ^ b
  | Or => bits orb a b c
  | And => bits andb a b c
  | Xor => bits xorb a b c
  | _ => False
  end.
Definition holds (o : bop) (a b : Z) : Prop :=
  match o with Eq => a = b | Ne => a <> b | Lt => a < b | Le => a <= b | Gt => a > b | Ge => a >= b | _ => False end.
Definition compares (o : bop) : bool := match o with Eq | Ne | Lt | Le | Gt | Ge => true | _ => false end.
(** C says what the operator does: there is a result, and it fits; numbers are shifted by 0 to 63 places, and to the left if they are not negative. *)
Definition defined (o : bop) (a b : Z) : Prop :=
  match o with
  | Plus => int64 (a + b)
  | Sub => int64 (a - b)
  | Mul => int64 (a * b)
  | Div | Mod => ~ (a = - 9223372036854775808 /\ b = -1)
  | Lmov => 0 <= b <= 63 /\ 0 <= a /\ a * 2 ^ b <= 9223372036854775807
  | Rmov => 0 <= b <= 63
  | _ => True
  end.

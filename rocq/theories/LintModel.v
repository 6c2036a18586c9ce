(** Model of the operators of integers in the script language: src/mln_lang_int.c, without operators that a script defines itself and without the lack of
    memory. The operator of an expression is that of the type of its left operand (src/mln_lang.c:4679), that of an assignment is that of its right
    operand (src/mln_lang.c:4458-4459): so here the left operand of an expression and the right one of an assignment are integers. *)
Require Import ZArith Bool List.
Open Scope Z_scope.

(** include/mln_lang.h mln_lang_val_s. Of a real its part before the point is kept and whether there is more; of a string what sscanf reads from it
    as a decimal number (0 if nothing). The part before the point fits into 64 bits. *)
Inductive val := Nil | Int (i : Z) | Boolean (b : bool) | Real (i : Z) (more : bool) | Str (i : Z) | Obj | Func | Arr.
(** What comes out: an integer, a truth value, an error of the operator, a division by zero; the operator of reals or of strings takes over;
    C does not say what happens. *)
Inductive out := IntV (i : Z) | BoolV (b : bool) | Refused | DivZero | ByReal | ByString | Undefined.
Inductive bop := Plus | Sub | Mul | Div | Mod | Lmov | Rmov | Or | And | Xor | Eq | Ne | Lt | Le | Gt | Ge.

Definition fits (z : Z) : bool := (- 2 ^ 63 <=? z) && (z <? 2 ^ 63).
Definition checked (z : Z) : out := if fits z then IntV z else Undefined.
(** src/mln_lang_int.c:162-203 mln_lang_int_var_toint. The operators here never ask for the number of a truth value, a function, an object or an array. *)
Definition toint (v : val) : Z :=
  match v with Int i => i | Boolean b => if b then 1 else 0 | Real i _ => i | Str i => i | _ => 0 end.
(** The operator of C on two 64-bit integers: src/mln_lang_int.c:609, 644, 679, 716, 753, 805, 857, 909, 961, 997, 1032, 1086, 1128, 1170, 1218-1223,
    1259-1264. A negative number is shifted to the right with its sign, as compilers do. *)
Definition prim (o : bop) (a b : Z) : out :=
  match o with
  | Plus => checked (a + b)
  | Sub => checked (a - b)
  | Mul => checked (a * b)
  | Div => if b =? 0 then DivZero else checked (Z.quot a b)
  | Mod => if b =? 0 then DivZero else if fits (Z.quot a b) then IntV (Z.rem a b) else Undefined
  | Lmov => if (0 <=? b) && (b <? 64) && (0 <=? a) then checked (Z.shiftl a b) else Undefined
  | Rmov => if (0 <=? b) && (b <? 64) then IntV (Z.shiftr a b) else Undefined
  | Or => IntV (Z.lor a b)
  | And => IntV (Z.land a b)
  | Xor => IntV (Z.lxor a b)
  | Eq => BoolV (a =? b)
  | Ne => BoolV (negb (a =? b))
  | Lt => BoolV (a <? b)
  | Le => BoolV (a <=? b)
  | Gt => BoolV (b <? a)
  | Ge => BoolV (b <=? a)
  end.
(** src/mln_lang_int.c:587-1275 mln_lang_int_cor ... mln_lang_int_mod: the left operand is the integer [a]; what the type of the right one leads to *)
Definition binary (o : bop) (a : Z) (v : val) : out :=
  match v with
  | Int b => prim o a b
  | Obj | Func | Arr | Boolean _ | Nil => match o with Eq => BoolV false | Ne => BoolV true | _ => Refused end
  | Str _ => match o with
             | Or | And | Xor => Refused
             | Plus | Lt | Le | Gt | Ge => ByString
             | _ => prim o a (toint v)
             end
  | Real _ _ => match o with
                | Mod | Lmov | Rmov => Refused
                | Or | And | Xor | Eq | Ne => prim o a (toint v)
                | _ => ByReal
                end
  end.
(** src/mln_lang_int.c:261-585 mln_lang_int_pluseq ... mln_lang_int_modeq: the right operand is the integer [b]. The variable afterwards, and the answer,
    which is the variable *)
Definition assign (o : bop) (x : val) (b : Z) : val * out :=
  let by_int a := match prim o a b with IntV c => (Int c, IntV c) | r => (x, r) end in
  match x with
  | Int a => by_int a
  | Real _ _ => match o with Plus | Sub | Mul | Div => (x, ByReal) | _ => by_int (toint x) end
  | Str _ => match o with Plus => (x, ByString) | _ => (x, Refused) end
  | _ => (x, Refused)
  end.
(** src/mln_lang_int.c:1277-1325, 1425-1473: sdec, sinc, pinc, pdec of an integer variable; 1353-1423: negative, reverse, not *)
Inductive uop := Sdec | Sinc | Pinc | Pdec | Neg | Rev | Not.
Definition unary (o : uop) (a : Z) : Z * out :=
  let set b r := if fits b then (b, IntV r) else (a, Undefined) in
  match o with
  | Sdec => set (a - 1) a
  | Sinc => set (a + 1) a
  | Pinc => set (a + 1) (a + 1)
  | Pdec => set (a - 1) (a - 1)
  | Neg => (a, checked (- a))
  | Rev => (a, IntV (Z.lnot a))
  | Not => (a, BoolV (a =? 0))
  end.

(** Model of the numbers of src/mln_json.c. A C double is a [spec_float] of the standard library with 53 bits of precision and largest
    exponent 1024 (IEEE 754 binary64, round to nearest even); every operation is rounded on its own, that is, the compiler is assumed neither
    to keep excess precision nor to fuse a multiplication with an addition. *)
Require Import List NArith ZArith Bool SpecFloat.
Require Import Verif.Base.
Import ListNotations.
Open Scope N_scope.

Definition dbl := spec_float.
Definition dadd : dbl -> dbl -> dbl := SFadd 53 1024.
Definition dmul : dbl -> dbl -> dbl := SFmul 53 1024.
Definition ddiv : dbl -> dbl -> dbl := SFdiv 53 1024.
(** Conversion of an integer to double. *)
Definition z2d (z : Z) : dbl := binary_normalize 53 1024 z 0 false.
Definition ten : dbl := z2d 10.

(** What a step of decoding or encoding can come to: a value; the -1 of the C code with the error left in the policy; a write outside an
    allocated block; a read behind the end of the text; arithmetic that C leaves undefined; the turn limit of the model. *)
Inductive res (A : Type) := Ok (a : A) | Bad (e : N) | Overrun | Overread | Arith | Stuck.
Arguments Ok {A}. Arguments Bad {A}. Arguments Overrun {A}. Arguments Overread {A}. Arguments Arith {A}. Arguments Stuck {A}.
Definition rbind {A B} (r : res A) (f : A -> res B) : res B :=
  match r with Ok a => f a | Bad e => Bad e | Overrun => Overrun | Overread => Overread | Arith => Arith | Stuck => Stuck end.
Notation "x <~ e1 ;; e2" := (rbind e1 (fun x => e2)) (at level 61, e1 at next level, right associativity).

(** include/mln_utils.h:170 mln_isdigit *)
Definition is_digit (c : N) : bool := (48 <=? c) && (c <=? 57).
Definition digit (c : N) : dbl := z2d (Z.of_N c - 48).

(** src/mln_json.c:784-788 the digits before the point. *)
Fixpoint int_part (v : dbl) (s : list N) : dbl * list N :=
  match s with
  | c :: t => if is_digit c then int_part (dadd (dmul v ten) (digit c)) t else (v, s)
  | [] => (v, [])
  end.
(** src/mln_json.c:797-800 a digit divided by ten [i] times. *)
Fixpoint div_tens (i : nat) (f : dbl) : dbl := match i with O => f | S i => div_tens i (ddiv f ten) end.
(** src/mln_json.c:795-802 the digits behind the point. *)
Fixpoint frac_part (i : nat) (v : dbl) (s : list N) : dbl * list N :=
  match s with
  | c :: t => if is_digit c then frac_part (S i) (dadd v (div_tens i (digit c))) t else (v, s)
  | [] => (v, [])
  end.
(** src/mln_json.c:819-823 the digits of the exponent, an int. *)
Fixpoint exp_part (i : N) (s : list N) : res (N * list N) :=
  match s with
  | c :: t => if is_digit c then (if i * 10 + (c - 48) <? 2 ^ 31 then exp_part (i * 10 + (c - 48)) t else Arith) else Ok (i, s)
  | [] => Ok (i, [])
  end.
(** src/mln_json.c:826-829 *)
Definition power (dir : bool) (i : N) : dbl := N.iter i (fun f => if dir then dmul f ten else ddiv f ten) (z2d 1).

(** src/mln_json.c:806-831 the exponent. *)
Definition exponent (v : dbl) (s : list N) : res (dbl * list N) :=
  match s with
  | c :: t =>
      if (c =? 101) || (c =? 69) then
        match t with
        | [] => Bad 0
        | d :: t' =>
            if ((d =? 43) || (d =? 45)) && match t' with [] => true | _ => false end then Ok (v, [])
            else
              let '(dir, u) := if d =? 43 then (true, t') else if d =? 45 then (false, t') else (true, t) in
              p <~ exp_part 0 u ;;
              if fst p =? 0 then Ok (v, snd p) else Ok (dmul v (power dir (fst p)), snd p)
        end
      else Ok (v, s)
  | [] => Ok (v, [])
  end.
(** src/mln_json.c:792-804 the fraction. *)
Definition fraction (v : dbl) (s : list N) : res (dbl * list N) :=
  match s with
  | c :: t =>
      if c =? 46 then
        match t with
        | [] => Bad 0
        | _ => match frac_part 1 v t with (v, []) => Ok (v, []) | (v, u) => exponent v u end
        end
      else exponent v s
  | [] => Ok (v, [])
  end.
(** src/mln_json.c:773-834 mln_json_digit_process; [Ok (v, rest)] for the value and the text behind it. *)
Definition digit_process (s : list N) : res (dbl * list N) :=
  match s with
  | c :: t =>
      if negb (is_digit c) then Bad 0
      else if c =? 48 then
        match t with
        | [] => Ok (z2d 0, [])
        | d :: _ => if is_digit d then Bad 0 else fraction (z2d 0) t
        end
      else match int_part (z2d 0) s with (v, []) => Ok (v, []) | (v, u) => fraction v u end
  | [] => Overread
  end.
(** src/mln_json.c:748-771 mln_json_parse_digit *)
Definition parse_digit (s : list N) : res (dbl * list N) :=
  match s with
  | c :: t =>
      if c =? 45 then match t with [] => Bad 0 | _ => p <~ digit_process t ;; Ok (SFopp (fst p), snd p) end
      else digit_process s
  | [] => Overread
  end.

(** ** Printing *)
(** The decimal digits of a number, as printf writes them. The number of turns is the number of bits. *)
Fixpoint dec_loop (fuel : nat) (n : N) (acc : list N) : list N :=
  match fuel with
  | O => acc
  | S f => if n <? 10 then (48 + n) :: acc else dec_loop f (n / 10) ((48 + n mod 10) :: acc)
  end.
Definition dec (n : N) : list N := dec_loop (S (N.size_nat n)) n [].
(** "%ld" *)
Definition print_int (z : Z) : list N := if (z <? 0)%Z then 45 :: dec (Z.to_N (- z)) else dec (Z.to_N z).
(** [n / d] rounded to the nearest integer, ties to even. *)
Definition round_div (n d : N) : N :=
  let q := n / d in let r := n mod d in
  if 2 * r <? d then q else if d <? 2 * r then q + 1 else if N.even q then q else q + 1.
(** "%f": six decimals, correctly rounded. *)
Definition print_fixed (s : bool) (m : positive) (e : Z) : list N :=
  let k := if (0 <=? e)%Z then N.pos m * 2 ^ Z.to_N e * 1000000 else round_div (N.pos m * 1000000) (2 ^ Z.to_N (- e)) in
  (if s then [45] else []) ++ dec (k / 1000000) ++ [46] ++ skipn 1 (dec (1000000 + k mod 1000000)).
(** The conversion to mln_s64_t: towards zero; [None] when C leaves it undefined. *)
Definition to_s64 (d : dbl) : option Z :=
  match d with
  | S754_zero _ => Some 0%Z
  | S754_finite s m e =>
      let a := if (0 <=? e)%Z then (Z.pos m * 2 ^ e)%Z else (Z.pos m / 2 ^ (- e))%Z in
      let z := cond_Zopp s a in
      if ((- 2 ^ 63 <=? z) && (z <? 2 ^ 63))%Z then Some z else None
  | _ => None
  end.
(** src/mln_json.c:1011-1021 the text of a number. *)
Definition print_num (d : dbl) : option (list N) :=
  i <- to_s64 d ;;
  if SFeqb (z2d i) d then Some (print_int i)
  else match d with S754_finite s m e => Some (print_fixed s m e) | _ => None end.

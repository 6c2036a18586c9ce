(** Model of the search for primes in src/mln_bignum.c.

    The numbers that rand_r returns are a list, taken from the front; they are below 2^31 (RAND_MAX of the C
    library), which the theorems ask for where it matters.  The seeds from gettimeofday are not modelled: any
    numbers may come.  The branches for MSVC are left out.  A result [None] is the list being used up, or an access
    outside an array or a failed assert in the arithmetic below. *)
Require Import List Arith NArith ZArith Bool.
Require Import Verif.Base Verif.BnModel Verif.BnTextModel Verif.BnModModel.
Import ListNotations.
Open Scope N_scope.

(** The number 2, src/mln_bignum.c:936-937 and 968. *)
Definition bn_two : bn := mkBn false 1 (2 :: zeros (SIZE - 1)).

(** src/mln_bignum.c:932-948 mln_bignum_seperate: [odd] is halved as long as it is even.  The loop does not end for
    zero; a number in [len] limbs can be halved less than 32 * len times. *)
Fixpoint seperate (fuel : nat) (pwr : N) (odd : bn) : option (N * bn) :=
  match fuel with
  | O => None
  | S f =>
      d <- bn_div odd bn_two ;;
      match d with
      | None => None
      | Some (m, q) => if (len m =? 0)%nat then seperate f (pwr + 1) q else Some (pwr, odd)
      end
  end.

(** src/mln_bignum.c:965-980 the loop of mln_bignum_witness; [true] is its return value 1. *)
Fixpoint witness_loop (k : nat) (prim : bn) (x new_x : bn) : option (bool * bn) :=
  match k with
  | O => Some (false, new_x)
  | S k' =>
      r <- bn_pwr x bn_two (Some prim) ;;
      match r with
      | None => None
      | Some nx =>
          tmp <- bn_sub prim bn_one ;;
          c <- bn_abs_compare nx bn_one ;;
          c1 <- bn_abs_compare x bn_one ;;
          c2 <- bn_abs_compare x tmp ;;
          if (c =? 0)%Z && negb (c1 =? 0)%Z && negb (c2 =? 0)%Z then Some (true, nx)
          else witness_loop k' prim nx nx
      end
  end.

(** src/mln_bignum.c:950-986 mln_bignum_witness.  The first power has its result ignored; -1 is outside the model. *)
Definition witness (base prim : bn) : option bool :=
  o <- bn_sub prim bn_one ;;
  s <- seperate (32 * len o + 1) 0 o ;;
  let '(pwr, odd) := s in
  r <- bn_pwr base odd (Some prim) ;;
  match r with
  | None => None
  | Some x =>
      l <- witness_loop (N.to_nat pwr) prim x bn_zero ;;
      let '(found, new_x) := l in
      if found then Some true
      else c <- bn_abs_compare new_x bn_one ;; Some (negb (c =? 0)%Z)
  end.

(** The next number of rand_r. *)
Definition draw (ds : list N) : option (N * list N) :=
  match ds with [] => None | d :: r => Some (d, r) end.

(** src/mln_bignum.c:998-1005 the loop that fills the whole limbs. *)
Fixpoint fill_limbs (n : nat) (ds : list N) : option (list N * list N) :=
  match n with
  | O => Some ([], ds)
  | S k => d <- draw ds ;; r <- fill_limbs k (snd d) ;; Some (N.land (fst d) 0xffffffff :: fst r, snd r)
  end.

(** Bit 0 of the first limb is set, src/mln_bignum.c:1019 and 1034. *)
Definition set_low (l : list N) : list N := match l with [] => [] | x :: t => N.lor x 1 :: t end.

(** src/mln_bignum.c:988-1038 mln_bignum_random_prime: despite the name, an odd number of [width] bits. *)
Definition random_prime (width : N) (ds : list N) : option (bn * list N) :=
  let times := N.to_nat (width / 32) in
  let off := width mod 32 in
  if (SIZE <? times)%nat then None
  else
    f <- fill_limbs times ds ;;
    let '(body, ds) := f in
    if negb (off =? 0) then
      if (SIZE <=? times)%nat then None
      else
        d <- draw ds ;;
        let t := N.lor (N.land (fst d * 0xfdfd) 0xffffffff) (2 ^ (off - 1)) in
        let t := N.shiftr (w64 (N.shiftl t (64 - off))) (64 - off) in
        Some (mkBn false (S times) (set_low (body ++ [t]) ++ zeros (SIZE - S times)), snd d)
    else
      match times with
      | O => Some (bn_zero, ds)
      | S k =>
          d <- (if nth k body 0 =? 0 then draw ds else Some (nth k body 0, ds)) ;;
          let body := firstn k body ++ [N.lor (fst d) 0x80000000] in
          Some (mkBn false times (set_low body ++ zeros (SIZE - times)), snd d)
      end.

(** src/mln_bignum.c:1040-1057 mln_bignum_random_scope; the argument [max] is not used by the code. *)
Fixpoint random_scope (fuel : nat) (width : N) (ds : list N) : option (bn * list N) :=
  match fuel with
  | O => None
  | S f =>
      d <- draw ds ;;
      let w := fst d mod width in
      if w <? 2 then random_scope f width (snd d) else random_prime w (snd d)
  end.

(** src/mln_bignum.c:1070-1073 the tests of one candidate: [true] when all bases passed. *)
Fixpoint try_bases (times : nat) (width : N) (prime : bn) (ds : list N) : option (bool * list N) :=
  match times with
  | O => Some (true, ds)
  | S k =>
      t <- random_scope (length ds) width ds ;;
      w <- witness (fst t) prime ;;
      if w then Some (false, snd t) else try_bases k width prime (snd t)
  end.

(** src/mln_bignum.c:1066-1075 the loop of mln_bignum_prime; every turn takes at least one number. *)
Fixpoint prime_loop (fuel : nat) (width : N) (ds : list N) : option (bn * list N) :=
  match fuel with
  | O => None
  | S f =>
      p <- random_prime width ds ;;
      c <- bn_abs_compare (fst p) bn_one ;;
      if (c <=? 0)%Z then prime_loop f width (snd p)
      else
        t <- try_bases (if width <=? 512 then 4 else N.to_nat (N.shiftr width 9)) width (fst p) (snd p) ;;
        if fst t then Some (fst p, snd t) else prime_loop f width (snd t)
  end.

(** src/mln_bignum.c:1059-1079 mln_bignum_prime; [Some None] is -1. *)
Definition bn_prime (width : N) (ds : list N) : option (option (bn * list N)) :=
  if (N.shiftr BITS 1 <? width) || (width <? 3) then Some None
  else r <- prime_loop (length ds) width ds ;; Some (Some r).

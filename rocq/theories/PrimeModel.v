(** Model of the prime generator, src/mln_prime_generator.c.

    The source draws its bases from rand() after seeding it with the clock; the
    model takes the successive results of rand() as a list, and every function
    that draws returns what is left of that list.  [None] means the list ran out:
    the program would still be drawing. *)
Require Import List NArith Bool.
Import ListNotations.
Require Import Verif.Base.
Local Open Scope N_scope.

(** rand_scope, src/mln_prime_generator.c:40-52: draws until
    (rand() + low) % high, computed in 32 bits, is not zero.  Seeding with
    gettimeofday is not modelled: the draws are arbitrary. *)
Fixpoint rand_scope (low high : N) (draws : list N) : option (N * list N) :=
  match draws with
  | [] => None
  | d :: rest =>
      let r := ((d + low) mod 2 ^ 32) mod high in
      if r =? 0 then rand_scope low high rest else Some (r, rest)
  end.

(** seperate, src/mln_prime_generator.c:54-64: num = 2^pwr * odd.  [num] is
    positive and below 2^32 at the only call, so 32 halvings are enough. *)
Fixpoint separate (fuel : nat) (num pwr : N) : option (N * N) :=
  match fuel with
  | O => None
  | S f => if num mod 2 =? 0 then separate f (N.shiftr num 1) (pwr + 1)
           else Some (pwr, num)
  end.

(** The loop of modular_expoinentiation, src/mln_prime_generator.c:72-79, for the
    bits below [i]; the products are 64-bit.  The source writes the mask as
    1<<i in int, and i starts at 31: the model takes 2^31 for that shift. *)
Fixpoint mod_exp_loop (i : nat) (base pwr n d : N) : N :=
  match i with
  | O => d
  | S i' =>
      let d := ((d * d) mod 2 ^ 64) mod n in
      let d := if N.testbit pwr (N.of_nat i') then ((d * base) mod 2 ^ 64) mod n else d in
      mod_exp_loop i' base pwr n d
  end.

(** modular_expoinentiation, src/mln_prime_generator.c:66-81. *)
Definition modular_exponentiation (base pwr n : N) : N := mod_exp_loop 32 base pwr n 1.

(** The loop of witness, src/mln_prime_generator.c:90-96, [i] rounds left:
    [None] is the return of 1 inside the loop, otherwise the last new_x. *)
Fixpoint square_loop (i : nat) (prim x new_x : N) : option N :=
  match i with
  | O => Some new_x
  | S i' =>
      let new_x := ((x * x) mod 2 ^ 64) mod prim in
      if (new_x =? 1) && negb (x =? 1) && negb (x =? prim - 1) then None
      else square_loop i' prim new_x new_x
  end.

(** witness, src/mln_prime_generator.c:83-101: whether [base] shows that [prim]
    is composite. *)
Definition witness (base prim : N) : option bool :=
  s <- separate 33 (prim - 1) 0 ;;
  let x := modular_exponentiation base (snd s) prim in
  match square_loop (N.to_nat (fst s)) prim x 0 with
  | None => Some true
  | Some new_x => Some (negb (new_x =? 1))
  end.

(** The for loop of mln_prime_generate, src/mln_prime_generator.c:27-32: [s] + 1
    bases are left to try.  True means none of them was a witness (s < 0). *)
Fixpoint trials (s : nat) (n prim : N) (draws : list N) : option (bool * list N) :=
  r <- rand_scope n prim draws ;;
  w <- witness (fst r) prim ;;
  if w then Some (false, snd r)
  else match s with
       | O => Some (true, snd r)
       | S s' => trials s' n prim (snd r)
       end.

(** The number the loop counter starts at, src/mln_prime_generator.c:26. *)
Definition rounds (prim : N) : N := if prim <=? 4 then 1 else N.shiftr (prim - 1) 2.

(** The while loop, src/mln_prime_generator.c:25-35.  Each round draws at least
    once, so the length of the list of draws bounds the rounds. *)
Fixpoint search (fuel : nat) (n prim : N) (draws : list N) : option N :=
  match fuel with
  | O => None
  | S f =>
      r <- trials (N.to_nat (rounds prim)) n prim draws ;;
      if fst r then Some prim else search f n ((prim + 2) mod 2 ^ 32) (snd r)
  end.

(** mln_prime_generate, src/mln_prime_generator.c:20-37. *)
Definition prime_generate (n : N) (draws : list N) : option N :=
  if n <=? 2 then Some 2
  else if 1073741824 <=? n then Some 1073741827
  else search (S (length draws)) n (if n mod 2 =? 0 then n + 1 else n) draws.

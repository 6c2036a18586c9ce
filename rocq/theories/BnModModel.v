(** Model of src/mln_bignum.c: power and extended Euclid. [Some None] is the return value -1. *)
Require Import List Arith NArith ZArith Bool.
Require Import Verif.Base Verif.BnModel Verif.BnTextModel.
Import ListNotations.
Open Scope N_scope.

(** src/mln_bignum.c:638-640 position of the highest one bit below [k]. *)
Fixpoint high_bit (k : nat) (e : bn) : option (option nat) :=
  match k with
  | O => Some None
  | S i => b <- bit_test_core e (N.of_nat i) ;; if b then Some (Some i) else high_bit i e
  end.

(** src/mln_bignum.c:654-658, 661-665 reduction when the number is at least as long as the modulus. *)
Definition reduce (d m : bn) : option (option bn) :=
  if (len m <=? len d)%nat then
    r <- bn_div d m ;; Some (option_map fst r)
  else Some (Some d).

(** src/mln_bignum.c:652-667 the loop with a modulus, for bits [k-1] down to 0. *)
Fixpoint pwr_mod_loop (k : nat) (x e m dest : bn) : option (option bn) :=
  match k with
  | O => Some (Some dest)
  | S i =>
      d <- bn_mul dest dest ;;
      r <- reduce d m ;;
      match r with
      | None => Some None
      | Some d =>
          b <- bit_test_core e (N.of_nat i) ;;
          if b then
            d <- bn_mul d x ;;
            r <- reduce d m ;;
            match r with None => Some None | Some d => pwr_mod_loop i x e m d end
          else pwr_mod_loop i x e m d
      end
  end.

(** src/mln_bignum.c:669-674 the loop without a modulus. *)
Fixpoint pwr_loop (k : nat) (x e dest : bn) : option (option bn) :=
  match k with
  | O => Some (Some dest)
  | S i =>
      d <- bn_mul dest dest ;;
      b <- bit_test_core e (N.of_nat i) ;;
      if b then d <- bn_mul d x ;; pwr_loop i x e d else pwr_loop i x e d
  end.

(** src/mln_bignum.c:629-677 __mln_bignum_pwr *)
Definition bn_pwr (dest e : bn) (m : option bn) : option (option bn) :=
  if neg e then Some None
  else
    h <- high_bit (len e * 32) e ;;
    match h with
    | None => Some (Some bn_one)
    | Some i => match m with Some m => pwr_mod_loop i dest e m dest | None => pwr_loop i dest e dest end
    end.

(** src/mln_bignum.c:1127-1147 the loop of mln_bignum_extend_eulid. *)
Fixpoint eulid_loop (fuel : nat) (n r q x0 y0 x1 y1 tx ty : bn) : option (option (bn * bn)) :=
  match fuel with
  | O => None
  | S fuel' =>
      c <- bn_compare r bn_zero ;;
      if (0 <? c)%Z then
        t <- bn_mul q x1 ;; tx <- bn_sub x0 t ;;
        t <- bn_mul q y1 ;; ty <- bn_sub y0 t ;;
        d <- bn_div n r ;;
        match d with
        | None => Some None
        | Some (r', q') => eulid_loop fuel' r r' q' x1 y1 tx ty tx ty
        end
      else Some (Some (tx, ty))
  end.

(** src/mln_bignum.c:1108-1153 mln_bignum_extend_eulid; the number of turns is at most two per bit of [b]. *)
Definition bn_eulid (a b : bn) : option (option (bn * bn)) :=
  d <- bn_div a b ;;
  match d with
  | None => Some None
  | Some (r, q) => eulid_loop (64 * len b + 2) b r q bn_one bn_zero bn_zero bn_one bn_zero bn_one
  end.

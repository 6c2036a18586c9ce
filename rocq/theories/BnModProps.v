(** C24: powers, modular powers and extended Euclid. *)
Require Import List Arith NArith ZArith Bool.
Require Import Verif.Base Verif.BnModel Verif.BnSpec Verif.BnLimbProofs Verif.BnProofs Verif.BnProps Verif.BnTextModel Verif.BnModModel
  Verif.BnModProofs Verif.BnEulidProofs.
Import ListNotations.
Open Scope N_scope.

(** The power without a modulus is the integer power whenever that fits. *)
Theorem bignum_power :
  forall x e, wf x -> wf e -> neg e = false -> fits (mag x ^ mag e) ->
    exists r, bn_pwr x e None = Some (Some r) /\ wf r /\ value r = (value x ^ value e)%Z.
Proof. exact pwr_ok. Qed.
Print Assumptions bignum_power.

(** The modular power for a reduced base and a modulus above one whose square fits. *)
Theorem bignum_modular_power_partial :
  forall x e m, wf x -> wf e -> wf m -> neg e = false -> (1 < value m)%Z -> fits (mag m * mag m) -> (0 <= value x < value m)%Z ->
    exists r, bn_pwr x e (Some m) = Some (Some r) /\ wf r /\ value r = (value x ^ value e mod value m)%Z.
Proof. exact pwr_mod_ok. Qed.
Print Assumptions bignum_modular_power_partial.

(** 9^1 mod 7 comes out as 9, and 3^0 mod 1 as 1. *)
Theorem bignum_modular_power_refuted :
  (exists r, bn_pwr (of_limbs false [9]) (of_limbs false [1]) (Some (of_limbs false [7])) = Some (Some r) /\ value r = 9%Z) /\
  (exists r, bn_pwr (of_limbs false [3]) (of_limbs false []) (Some (of_limbs false [1])) = Some (Some r) /\ value r = 1%Z).
Proof.
  split; [exists (of_limbs false [9])|exists (of_limbs false [1])]; split; vm_compute; reflexivity.
Qed.
Print Assumptions bignum_modular_power_refuted.

Theorem bignum_power_refuses_negative_exponent : forall x e m, neg e = true -> bn_pwr x e m = Some None.
Proof. intros x e m H. unfold bn_pwr. rewrite H. reflexivity. Qed.
Print Assumptions bignum_power_refuses_negative_exponent.

(** Extended Euclid terminates and returns Bezout coefficients of the greatest common divisor; for numbers of at most 256 limbs
    (see [bignum_div_bounds_refuted] for longer ones). *)
Theorem bignum_extended_euclid_partial :
  forall a b, wf a -> wf b -> (0 <= value a)%Z -> (0 < value b)%Z -> (len a < 257)%nat -> (len b < 257)%nat ->
    exists x y, bn_eulid a b = Some (Some (x, y)) /\ wf x /\ wf y /\
      (value x * value a + value y * value b = Z.gcd (value a) (value b))%Z.
Proof. exact eulid_ok. Qed.
Print Assumptions bignum_extended_euclid_partial.

Example bignum_power_meets :
  (exists r, bn_pwr (of_limbs true [3]) (of_limbs false [5]) None = Some (Some r) /\ value r = (-243)%Z) /\
  fits (mag (of_limbs true [3]) ^ mag (of_limbs false [5])) /\
  (exists r, bn_pwr (of_limbs false [4; 1]) (of_limbs false [7]) (Some (of_limbs false [5; 9])) = Some (Some r) /\
     value r = (4294967300 ^ 7 mod 38654705669)%Z) /\
  (1 < value (of_limbs false [5; 9]%N))%Z /\ fits (mag (of_limbs false [5; 9]) * mag (of_limbs false [5; 9])) /\
  (0 <= value (of_limbs false [4; 1]%N) < value (of_limbs false [5; 9]%N))%Z /\
  (exists x y, bn_eulid (of_limbs false [240]) (of_limbs false [46]) = Some (Some (x, y)) /\ value x = (-9)%Z /\ value y = 47%Z) /\
  Z.gcd 240 46 = 2%Z.
Proof.
  split; [exists (of_limbs true [243]); split; vm_compute; reflexivity|].
  split; [apply N.ltb_lt; vm_compute; reflexivity|].
  split; [eexists; split; [vm_compute; reflexivity|vm_compute; reflexivity]|].
  split; [apply Z.ltb_lt; vm_compute; reflexivity|]. split; [apply N.ltb_lt; vm_compute; reflexivity|].
  split; [split; [vm_compute; discriminate|apply Z.ltb_lt; vm_compute; reflexivity]|].
  split; [|reflexivity]. eexists. eexists. split; [vm_compute; reflexivity|]. split; vm_compute; reflexivity.
Qed.

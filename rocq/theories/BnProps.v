(** C18-C21: big number arithmetic. *)
Require Import List Arith NArith ZArith Bool.
Require Import Verif.Base Verif.BnModel Verif.BnSpec Verif.BnLimbProofs Verif.BnAddProofs Verif.BnMulProofs Verif.BnDivProofs Verif.BnShiftProofs Verif.BnProofs.
Import ListNotations.
Open Scope N_scope.

(** Operands for the examples: 2^32-1 and friends, with either sign, and a number with all 257 limbs. *)
Definition big : bn := of_limbs false [4294967295; 4294967295; 7].
Definition nbig : bn := of_limbs true [1; 0; 9].
Definition full : bn := of_limbs false (repeat 4294967295 257).

(** ** C18 *)
Theorem bignum_abs_compare :
  forall a b, wf a -> wf b -> bn_abs_compare a b = Some (zcmp (Z.of_N (mag a)) (Z.of_N (mag b))).
Proof. intros a b Ha Hb. apply abs_compare_ok; apply wf_wfp; assumption. Qed.
Print Assumptions bignum_abs_compare.

(** Comparison, except for two negative numbers of the same limb count and different magnitude. *)
Theorem bignum_compare_partial :
  forall a b, wf a -> wf b -> neg a && neg b = false \/ len a <> len b \/ mag a = mag b ->
    bn_compare a b = Some (zcmp (value a) (value b)).
Proof. intros a b Ha Hb H. apply compare_ok; auto; apply wf_wfp; assumption. Qed.
Print Assumptions bignum_compare_partial.

(** compare(-7, -5) is 1. *)
Theorem bignum_compare_refuted :
  exists a b, wf a /\ wf b /\ value a = (-7)%Z /\ value b = (-5)%Z /\ bn_compare a b = Some 1%Z.
Proof.
  exists (of_limbs true [7]), (of_limbs true [5]). split; [|split; [|split; [|split]]];
    try (apply wfb_ok; vm_compute; reflexivity); vm_compute; reflexivity.
Qed.
Print Assumptions bignum_compare_refuted.

Theorem bignum_add :
  forall d s, wf d -> wf s -> fits (Z.abs_N (value d + value s)) ->
    exists r, bn_add d s = Some r /\ wf r /\ value r = (value d + value s)%Z.
Proof.
  intros d s Hd Hs F. destruct (add_ok d s) as (r & E & W & V); try (apply wf_wfp; assumption); auto.
  exists r. split; [exact E|]. split; [apply wf_wfp; exact W|exact V].
Qed.
Print Assumptions bignum_add.

(** Subtraction, except for two negative numbers of the same limb count and different magnitude. *)
Theorem bignum_sub_partial :
  forall d s, wf d -> wf s -> fits (Z.abs_N (value d - value s)) -> neg d && neg s = false \/ len d <> len s \/ mag d = mag s ->
    exists r, bn_sub d s = Some r /\ wf r /\ value r = (value d - value s)%Z.
Proof.
  intros d s Hd Hs F H. destruct (sub_ok d s) as (r & E & W & V); try (apply wf_wfp; assumption); auto.
  exists r. split; [exact E|]. split; [apply wf_wfp; exact W|exact V].
Qed.
Print Assumptions bignum_sub_partial.

(** (-7) - (-5) stops in an assert. *)
Theorem bignum_sub_refuted :
  exists d s, wf d /\ wf s /\ value d = (-7)%Z /\ value s = (-5)%Z /\ bn_sub d s = None.
Proof.
  exists (of_limbs true [7]), (of_limbs true [5]). split; [|split; [|split; [|split]]];
    try (apply wfb_ok; vm_compute; reflexivity); vm_compute; reflexivity.
Qed.
Print Assumptions bignum_sub_refuted.

Example bignum_add_meets :
  wf big /\ wf nbig /\ fits (Z.abs_N (value big + value nbig)) /\ fits (Z.abs_N (value big - value nbig)) /\
  neg big && neg nbig = false /\ value big = 147573952589676412927%Z /\ value nbig = (-166020696663385964545)%Z /\
  option_map value (bn_add big nbig) = Some (-18446744073709551618)%Z /\
  option_map value (bn_sub big nbig) = Some 313594649253062377472%Z /\ bn_compare big nbig = Some 1%Z.
Proof.
  split; [apply wfb_ok; vm_compute; reflexivity|]. split; [apply wfb_ok; vm_compute; reflexivity|].
  split; [apply N.ltb_lt; vm_compute; reflexivity|]. split; [apply N.ltb_lt; vm_compute; reflexivity|].
  repeat split; vm_compute; reflexivity.
Qed.

(** ** C19 *)
Theorem bignum_mul :
  forall d s, wf d -> wf s -> fits (Z.abs_N (value d * value s)) ->
    exists r, bn_mul d s = Some r /\ wf r /\ value r = (value d * value s)%Z.
Proof.
  intros d s Hd Hs F. destruct (mul_value d s) as (r & E & W & V); try (apply wf_wfp; assumption); auto.
  exists r. split; [exact E|]. split; [apply wf_wfp; exact W|exact V].
Qed.
Print Assumptions bignum_mul.

Example bignum_mul_meets :
  fits (Z.abs_N (value big * value nbig)) /\ option_map value (bn_mul big nbig) = Some (-24500330418307569369344524991013601673215)%Z.
Proof. split; [apply N.ltb_lt; vm_compute; reflexivity|vm_compute; reflexivity]. Qed.

(** ** C20 *)
(** Division by a positive divisor truncates. Excluded: a 257-limb dividend with a divisor of two or more limbs whose top bit is set. *)
Theorem bignum_div_partial :
  forall d s, wf d -> wf s -> (0 < value s)%Z ->
    (len d < 257)%nat \/ nth (len s - 1) (dat s) 0 < 2 ^ 31 \/ (len s < 2)%nat ->
    exists r q, bn_div d s = Some (Some (r, q)) /\ wf r /\ wf q /\
      value q = Z.quot (value d) (value s) /\ value r = Z.rem (value d) (value s).
Proof. exact div_value. Qed.
Print Assumptions bignum_div_partial.

(** For a divisor of any sign the magnitudes are those of the quotient and remainder. *)
Theorem bignum_div_magnitudes_partial :
  forall d s, wf d -> wf s -> value s <> 0%Z ->
    (len d < 257)%nat \/ nth (len s - 1) (dat s) 0 < 2 ^ 31 \/ (len s < 2)%nat ->
    exists r q, bn_div d s = Some (Some (r, q)) /\ wf r /\ wf q /\
      mag q = mag d / mag s /\ mag r = mag d mod mag s /\
      (value q = if xorb (neg d) (neg s) then - Z.of_N (mag q) else Z.of_N (mag q))%Z.
Proof. exact div_magnitudes_value. Qed.
Print Assumptions bignum_div_magnitudes_partial.

Theorem bignum_div_by_zero_refused :
  forall d s, wf s -> value s = 0%Z -> bn_div d s = Some None.
Proof. exact div_zero. Qed.
Print Assumptions bignum_div_by_zero_refused.

(** 7 / -2: the quotient is -3 and the remainder -1, which do not add up to 7. *)
Theorem bignum_div_sign_refuted :
  exists d s r q, wf d /\ wf s /\ value d = 7%Z /\ value s = (-2)%Z /\ bn_div d s = Some (Some (r, q)) /\
    value q = (-3)%Z /\ value r = (-1)%Z /\ value d <> (value q * value s + value r)%Z.
Proof.
  exists (of_limbs false [7]), (of_limbs true [2]). eexists. eexists.
  split; [apply wfb_ok; vm_compute; reflexivity|]. split; [apply wfb_ok; vm_compute; reflexivity|].
  split; [vm_compute; reflexivity|]. split; [vm_compute; reflexivity|]. split; [vm_compute; reflexivity|].
  split; [vm_compute; reflexivity|]. split; [vm_compute; reflexivity|]. vm_compute. discriminate.
Qed.
Print Assumptions bignum_div_sign_refuted.

(** A dividend with all 257 limbs and a divisor with its top bit set: the division reads past the dividend. *)
Theorem bignum_div_bounds_refuted :
  exists d s, wf d /\ wf s /\ (0 < value s)%Z /\ bn_div d s = None.
Proof.
  exists full, (of_limbs false [0; 2147483648]). split; [apply wfb_ok; vm_compute; reflexivity|].
  split; [apply wfb_ok; vm_compute; reflexivity|]. split; vm_compute; reflexivity.
Qed.
Print Assumptions bignum_div_bounds_refuted.

Example bignum_div_meets :
  (0 < value big)%Z /\ (len nbig < 257)%nat /\ wf (of_limbs true [5; 6; 7; 8; 9]) /\
  match bn_div (of_limbs true [5; 6; 7; 8; 9]) big with
  | Some (Some (r, q)) => value q = (-20752587087218212865)%Z /\ value r = (-2305843039278465030)%Z
  | _ => False
  end.
Proof.
  split; [vm_compute; reflexivity|]. split; [apply Nat.ltb_lt; vm_compute; reflexivity|].
  split; [apply wfb_ok; vm_compute; reflexivity|]. vm_compute. split; reflexivity.
Qed.

(** ** C21 *)
Theorem bignum_left_shift_partial :
  forall b n, wf b -> n < 8224 -> fits (mag b * 2 ^ n) ->
    exists r, bn_left_shift b n = Some r /\ wf r /\ value r = (value b * 2 ^ Z.of_N n)%Z.
Proof. exact left_shift_value. Qed.
Print Assumptions bignum_left_shift_partial.

(** When the result does not fit, the high bits are dropped. *)
Theorem bignum_left_shift_truncates :
  forall b n, wf b -> n < 8224 ->
    exists r, bn_left_shift b n = Some r /\ wf r /\ neg r = neg b /\ mag r = (mag b * 2 ^ n) mod 2 ^ 8224.
Proof.
  intros b n Hb Hn. destruct (left_shift_ok b n) as (r & E & W & V); try (apply wf_wfp; assumption); auto.
  exists r. split; [exact E|]. split; [apply wf_wfp; exact W|exact V].
Qed.
Print Assumptions bignum_left_shift_truncates.

(** Excluded: a shift by 1 to 31 of a number with all 257 limbs, and shifts by 8224 or more. *)
Theorem bignum_right_shift_partial :
  forall b n, wf b -> n < 8224 -> (len b < 257)%nat \/ 32 <= n \/ n = 0 ->
    exists r, bn_right_shift b n = Some r /\ wf r /\ value r = Z.quot (value b) (2 ^ Z.of_N n).
Proof. exact right_shift_value. Qed.
Print Assumptions bignum_right_shift_partial.

(** A shift by 8224 or more leaves the number as it is. *)
Theorem bignum_shift_width_refuted :
  forall b n, 8224 <= n -> bn_right_shift b n = Some b /\ bn_left_shift b n = Some b.
Proof. exact shift_wide. Qed.
Print Assumptions bignum_shift_width_refuted.

(** A right shift by one of a number with all 257 limbs reads outside the structure. *)
Theorem bignum_right_shift_bounds_refuted : exists b, wf b /\ bn_right_shift b 1 = None.
Proof. exists full. split; [apply wfb_ok; vm_compute; reflexivity|vm_compute; reflexivity]. Qed.
Print Assumptions bignum_right_shift_bounds_refuted.

Theorem bignum_bit_test : forall b i, wf b -> bn_bit_test b i = Some (N.testbit (mag b) i).
Proof. intros b i Hb. apply bit_test_ok. apply wf_wfp. exact Hb. Qed.
Print Assumptions bignum_bit_test.

Example bignum_shift_meets :
  fits (mag big * 2 ^ 77) /\ option_map value (bn_left_shift big 77) = Some (147573952589676412927 * 2 ^ 77)%Z /\
  option_map value (bn_right_shift nbig 37) = Some (-1207959552)%Z /\ bn_bit_test big 66 = Some true /\ bn_bit_test big 67 = Some false.
Proof. split; [apply N.ltb_lt; vm_compute; reflexivity|]. repeat split; vm_compute; reflexivity. Qed.

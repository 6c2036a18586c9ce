(** C22, C23: big numbers as text and as octet strings. *)
Require Import List Arith NArith ZArith Bool.
Require Import Verif.Base Verif.BnModel Verif.BnSpec Verif.BnLimbProofs Verif.BnProofs Verif.BnProps Verif.BnTextModel Verif.BnTextSpec
  Verif.EndianSpec Verif.BnTextProofs Verif.BnStringProofs Verif.BnOctProofs.
Import ListNotations.
Open Scope N_scope.

(** ** C22 *)
Theorem bignum_assign_decimal :
  forall minus s n, (length s <= 2056)%nat -> nth 0 s 0 <> 48 -> numeral 10 0 s = Some n ->
    exists r, bn_assign (sign_text minus ++ s) = Some (Some r) /\ wf r /\ value r = signed minus n.
Proof. exact assign_decimal. Qed.
Print Assumptions bignum_assign_decimal.

Theorem bignum_assign_hexadecimal :
  forall minus s n, (length s <= 2056)%nat -> numeral 16 0 s = Some n ->
    exists r, bn_assign (sign_text minus ++ [48; 120] ++ s) = Some (Some r) /\ wf r /\ value r = signed minus n.
Proof. exact assign_hexadecimal. Qed.
Print Assumptions bignum_assign_hexadecimal.

(** A text with a character that is no digit is refused. *)
Theorem bignum_assign_refuses_bad_digits :
  forall minus s, (length s <= 2056)%nat ->
    (numeral 16 0 s = None -> bn_assign (sign_text minus ++ [48; 120] ++ s) = Some None) /\
    (numeral 10 0 s = None -> nth 0 s 0 <> 48 -> nth 0 s 0 <> 45 -> bn_assign (sign_text minus ++ s) = Some None).
Proof. exact assign_bad. Qed.
Print Assumptions bignum_assign_refuses_bad_digits.

Theorem bignum_assign_refuses_long_texts :
  forall minus s, (2056 < length s)%nat ->
    bn_assign (sign_text minus ++ [48; 120] ++ s) = Some None /\
    (nth 0 s 0 <> 48 -> nth 0 s 0 <> 45 -> bn_assign (sign_text minus ++ s) = Some None).
Proof. exact assign_long. Qed.
Print Assumptions bignum_assign_refuses_long_texts.

(** Octal literals: only up to three digits and below 256. *)
Theorem bignum_assign_octal_partial :
  forall minus s n, (length s <= 3)%nat -> numeral 8 0 s = Some n -> n < 256 ->
    exists r, bn_assign (sign_text minus ++ 48 :: s) = Some (Some r) /\ wf r /\ value r = signed minus n.
Proof. exact assign_octal. Qed.
Print Assumptions bignum_assign_octal_partial.

(** "01000" is read as 256, and "0777" is refused. *)
Theorem bignum_assign_octal_refuted :
  (exists s r, numeral 8 0 s = Some 512 /\ bn_assign (48 :: s) = Some (Some r) /\ value r = 256%Z) /\
  (exists s, numeral 8 0 s = Some 511 /\ bn_assign (48 :: s) = Some None).
Proof.
  split.
  - exists [49; 48; 48; 48], (of_limbs false [256]). repeat split; vm_compute; reflexivity.
  - exists [55; 55; 55]. split; vm_compute; reflexivity.
Qed.
Print Assumptions bignum_assign_octal_refuted.

(** The text of a number is its decimal numeral, without leading zeros, with a minus sign for negative numbers. *)
Theorem bignum_tostring_partial :
  forall n, wf n -> neg n = false \/ value n <> 0%Z ->
    exists ds, bn_tostring n = Some (Some (sign_text (neg n) ++ ds)) /\ numeral 10 0 ds = Some (mag n) /\
      (ds = [48] \/ nth 0 ds 0 <> 48 /\ ds <> []).
Proof. exact tostring_numeral. Qed.
Print Assumptions bignum_tostring_partial.

(** The text of a negative zero is a lone minus sign. "-0x0" makes one. *)
Theorem bignum_tostring_refuted :
  exists n, bn_assign [45; 48; 120; 48] = Some (Some n) /\ wf n /\ value n = 0%Z /\ bn_tostring n = Some (Some [45]).
Proof.
  exists (mkBn true 0 (repeat 0 257)). split; [vm_compute; reflexivity|]. split; [apply wfb_ok; vm_compute; reflexivity|].
  split; vm_compute; reflexivity.
Qed.
Print Assumptions bignum_tostring_refuted.

(** Reading back the text gives the same number, below 10^2056. *)
Theorem bignum_text_round_trip_partial :
  forall n, wf n -> neg n = false \/ value n <> 0%Z -> mag n < 10 ^ 2056 ->
    exists s b, bn_tostring n = Some (Some s) /\ bn_assign s = Some (Some b) /\ wf b /\ value b = value n.
Proof. exact text_round_trip. Qed.
Print Assumptions bignum_text_round_trip_partial.

(** From 10^2056 on, the text is refused. *)
Theorem bignum_text_round_trip_refuted :
  forall n, wf n -> 10 ^ 2056 <= mag n -> exists s, bn_tostring n = Some (Some s) /\ bn_assign s = Some None.
Proof. exact text_too_long. Qed.
Print Assumptions bignum_text_round_trip_refuted.

Example bignum_text_meets :
  (exists r, bn_assign [45; 57; 48; 55] = Some (Some r) /\ value r = (-907)%Z) /\
  (exists r, bn_assign [48; 120; 49; 48; 65; 98; 48; 48; 48; 48; 49] = Some (Some r) /\ value r = 4474273793%Z) /\
  (exists r, bn_assign [45; 48; 50; 55; 51] = Some (Some r) /\ value r = (-187)%Z) /\
  bn_tostring (of_limbs true [1000]) = Some (Some [45; 49; 48; 48; 48]) /\
  (wf nbig /\ value nbig <> 0%Z /\ mag nbig < 10 ^ 2056) /\ (wf full /\ 10 ^ 2056 <= mag full).
Proof.
  split; [|split; [|split; [|split; [|split]]]].
  - exists (of_limbs true [907]). split; vm_compute; reflexivity.
  - exists (of_limbs false [179306497; 1]). split; vm_compute; reflexivity.
  - exists (of_limbs true [187]). split; vm_compute; reflexivity.
  - vm_compute; reflexivity.
  - split; [apply wfb_ok; vm_compute; reflexivity|]. split; [discriminate|apply N.ltb_lt; vm_compute; reflexivity].
  - split; [apply wfb_ok; vm_compute; reflexivity|apply N.leb_le; vm_compute; reflexivity].
Qed.

(** ** C23 *)
(** Every octet string of at most 1028 bytes is read as the number it denotes. *)
Theorem bignum_os2ip_value :
  forall s, bytes s -> (length s <= 1028)%nat ->
    exists b, bn_os2ip s = Some (Some b) /\ value b = Z.of_N (be_value s).
Proof. exact os2ip_value. Qed.
Print Assumptions bignum_os2ip_value.

Theorem bignum_os2ip_refuses_long :
  forall s, (1028 < length s)%nat -> bn_os2ip s = Some None.
Proof. exact os2ip_long. Qed.
Print Assumptions bignum_os2ip_refuses_long.

(** The number is well formed if the top limb is not made of leading zero bytes only. *)
Theorem bignum_os2ip_well_formed_partial :
  forall s b, bytes s -> (length s <= 1028)%nat -> bn_os2ip s = Some (Some b) ->
    s = [] \/ 256 ^ N.of_nat (4 * ((length s - 1) / 4)) <= be_value s -> wf b.
Proof. exact os2ip_canonical. Qed.
Print Assumptions bignum_os2ip_well_formed_partial.

(** With leading zero bytes it is not, and 5 then compares as greater than 7. *)
Theorem bignum_os2ip_well_formed_refuted :
  exists s b, bytes s /\ bn_os2ip s = Some (Some b) /\ value b = 5%Z /\ ~ wf b /\ bn_compare b (of_limbs false [7]) = Some 1%Z.
Proof.
  exists [0; 0; 0; 0; 5], (mkBn false 2 (5 :: repeat 0 256)).
  split; [repeat constructor|]. split; [vm_compute; reflexivity|]. split; [vm_compute; reflexivity|].
  split; [|vm_compute; reflexivity].
  intros (_ & _ & _ & _ & [H|H]); [discriminate|]. apply H. reflexivity.
Qed.
Print Assumptions bignum_os2ip_well_formed_refuted.

(** Writing a number fills the whole buffer with its big-endian octets. *)
Theorem bignum_i2osp_value :
  forall b n, wf b -> neg b = false -> (4 * len b <= n)%nat ->
    exists s, bn_i2osp b n = Some s /\ length s = n /\ bytes s /\ be_value s = mag b.
Proof. exact i2osp_ok. Qed.
Print Assumptions bignum_i2osp_value.

Theorem bignum_i2osp_refuses :
  forall b n, neg b = true \/ (n < 4 * len b)%nat -> bn_i2osp b n = None.
Proof. exact i2osp_refuses. Qed.
Print Assumptions bignum_i2osp_refuses.

(** Reading and writing back pads on the left with zeros, if the buffer has room for whole limbs. *)
Theorem bignum_octet_round_trip_partial :
  forall s n, bytes s -> (length s <= 1028)%nat -> (4 * ((length s + 3) / 4) <= n)%nat ->
    exists b, bn_os2ip s = Some (Some b) /\ bn_i2osp b n = Some (repeat 0 (n - length s) ++ s).
Proof. exact octet_round_trip. Qed.
Print Assumptions bignum_octet_round_trip_partial.

(** A buffer of the length of the string is not always enough. *)
Theorem bignum_octet_round_trip_refuted :
  exists s b, bytes s /\ bn_os2ip s = Some (Some b) /\ bn_i2osp b (length s) = None.
Proof. exists [5], (of_limbs false [5]). split; [repeat constructor|]. split; vm_compute; reflexivity. Qed.
Print Assumptions bignum_octet_round_trip_refuted.

(** Writing and reading back gives the same integer. *)
Theorem bignum_integer_round_trip :
  forall b n, wf b -> neg b = false -> (4 * len b <= n)%nat -> (n <= 1028)%nat ->
    exists s b', bn_i2osp b n = Some s /\ bn_os2ip s = Some (Some b') /\ value b' = value b.
Proof. exact integer_round_trip. Qed.
Print Assumptions bignum_integer_round_trip.

Example bignum_octet_meets :
  bytes [1; 2; 3; 4; 5] /\ 256 ^ N.of_nat (4 * ((length [1; 2; 3; 4; 5] - 1) / 4)) <= be_value [1; 2; 3; 4; 5] /\
  (exists b, bn_os2ip [1; 2; 3; 4; 5] = Some (Some b) /\ bn_i2osp b 9 = Some [0; 0; 0; 0; 1; 2; 3; 4; 5]) /\
  bn_i2osp big 13 = Some [0; 0; 0; 0; 7; 255; 255; 255; 255; 255; 255; 255; 255].
Proof.
  split; [repeat constructor|]. split; [vm_compute; discriminate|]. split; [|vm_compute; reflexivity].
  exists (of_limbs false [33752069; 1]). split; vm_compute; reflexivity.
Qed.

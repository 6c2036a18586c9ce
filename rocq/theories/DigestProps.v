(** * Message digests: the properties *)

From Coq Require Import List Arith NArith.
From Verif Require Import Base DigestModel DigestSpec DigestStream DigestProofs.
Import ListNotations.
Local Open Scope N_scope.

(** ** A message fed in pieces

    [buf] is what the context's buffer holds at first, [out] the caller's buffer.
    [ps] are the pieces before the last one, [last] the piece given with [is_last]. *)

Theorem md5_streaming : forall buf ps last out len,
  length buf = 64%nat -> Forall bytes ps -> bytes last -> (Nat.min len 16 <= length out)%nat ->
  exists c, calc_all md5_regs md5_calc_block length_le (md5_init buf) ps last = Some c /\
    md5_tobytes c out len = Some (put out (md5 (concat ps ++ last)) len).
Proof.
  intros buf ps last out len Lb Bp Bl Lo. destruct (md5_final buf ps last Lb Bp Bl) as (c & E1 & E2).
  exists c. split; [exact E1|]. rewrite <- E2. now apply md5_tobytes_ok.
Qed.
Print Assumptions md5_streaming.

Theorem md5_streaming_hex : forall buf ps last out len,
  length buf = 64%nat -> Forall bytes ps -> bytes last -> (Nat.min len 33 <= length out)%nat ->
  exists c, calc_all md5_regs md5_calc_block length_le (md5_init buf) ps last = Some c /\
    md5_tostring c out len = Some (put_hex out (md5 (concat ps ++ last)) len).
Proof.
  intros buf ps last out len Lb Bp Bl Lo. destruct (md5_final buf ps last Lb Bp Bl) as (c & E1 & E2).
  exists c. split; [exact E1|]. rewrite <- E2. now apply md5_tostring_ok.
Qed.
Print Assumptions md5_streaming_hex.

Theorem sha1_streaming : forall buf ps last out len,
  length buf = 64%nat -> Forall bytes ps -> bytes last -> (Nat.min len 20 <= length out)%nat ->
  exists c, calc_all sha1_regs sha1_calc_block length_be (sha1_init buf) ps last = Some c /\
    sha1_tobytes c out len = Some (put out (sha1 (concat ps ++ last)) len).
Proof.
  intros buf ps last out len Lb Bp Bl Lo. destruct (sha1_final buf ps last Lb Bp Bl) as (c & E1 & E2).
  exists c. split; [exact E1|]. rewrite <- E2. now apply sha1_tobytes_ok.
Qed.
Print Assumptions sha1_streaming.

Theorem sha1_streaming_hex : forall buf ps last out len,
  length buf = 64%nat -> Forall bytes ps -> bytes last -> (Nat.min len 41 <= length out)%nat ->
  exists c, calc_all sha1_regs sha1_calc_block length_be (sha1_init buf) ps last = Some c /\
    sha1_tostring c out len = Some (put_hex out (sha1 (concat ps ++ last)) len).
Proof.
  intros buf ps last out len Lb Bp Bl Lo. destruct (sha1_final buf ps last Lb Bp Bl) as (c & E1 & E2).
  exists c. split; [exact E1|]. rewrite <- E2. now apply sha1_tostring_ok.
Qed.
Print Assumptions sha1_streaming_hex.

Theorem sha256_streaming : forall buf ps last out len,
  length buf = 64%nat -> Forall bytes ps -> bytes last -> (Nat.min len 32 <= length out)%nat -> ~ In len [20; 24; 28]%nat ->
  exists c, calc_all sha256_regs sha256_calc_block length_be (sha256_init buf) ps last = Some c /\
    sha256_tobytes c out len = Some (put out (sha256 (concat ps ++ last)) len).
Proof.
  intros buf ps last out len Lb Bp Bl Lo Ni. destruct (sha256_final buf ps last Lb Bp Bl) as (c & E1 & E2).
  exists c. split; [exact E1|]. rewrite <- E2. now apply sha256_tobytes_ok.
Qed.
Print Assumptions sha256_streaming.

Theorem sha256_streaming_hex : forall buf ps last out len,
  length buf = 64%nat -> Forall bytes ps -> bytes last -> (Nat.min len 65 <= length out)%nat ->
  exists c, calc_all sha256_regs sha256_calc_block length_be (sha256_init buf) ps last = Some c /\
    sha256_tostring c out len = Some (put_hex out (sha256 (concat ps ++ last)) len).
Proof.
  intros buf ps last out len Lb Bp Bl Lo. destruct (sha256_final buf ps last Lb Bp Bl) as (c & E1 & E2).
  exists c. split; [exact E1|]. rewrite <- E2. now apply sha256_tostring_ok.
Qed.
Print Assumptions sha256_streaming_hex.

(** Two divisions of a message give the same bytes. *)
Theorem digest_division : forall buf buf' ps last ps' last',
  length buf = 64%nat -> length buf' = 64%nat -> Forall bytes ps -> bytes last -> Forall bytes ps' -> bytes last' ->
  concat ps ++ last = concat ps' ++ last' ->
  (exists c c', calc_all md5_regs md5_calc_block length_le (md5_init buf) ps last = Some c /\
     calc_all md5_regs md5_calc_block length_le (md5_init buf') ps' last' = Some c' /\
     md5_tobytes c (repeat 0 16) 16 = md5_tobytes c' (repeat 0 16) 16) /\
  (exists c c', calc_all sha1_regs sha1_calc_block length_be (sha1_init buf) ps last = Some c /\
     calc_all sha1_regs sha1_calc_block length_be (sha1_init buf') ps' last' = Some c' /\
     sha1_tobytes c (repeat 0 20) 20 = sha1_tobytes c' (repeat 0 20) 20) /\
  (exists c c', calc_all sha256_regs sha256_calc_block length_be (sha256_init buf) ps last = Some c /\
     calc_all sha256_regs sha256_calc_block length_be (sha256_init buf') ps' last' = Some c' /\
     sha256_tobytes c (repeat 0 32) 32 = sha256_tobytes c' (repeat 0 32) 32).
Proof.
  intros buf buf' ps last ps' last' L L' B1 B2 B3 B4 E. repeat split.
  - destruct (md5_streaming buf ps last (repeat 0 16) 16 L B1 B2 (le_n 16)) as (c & X & Y).
    destruct (md5_streaming buf' ps' last' (repeat 0 16) 16 L' B3 B4 (le_n 16)) as (c' & X' & Y').
    exists c, c'. rewrite Y, Y', E. auto.
  - destruct (sha1_streaming buf ps last (repeat 0 20) 20 L B1 B2 (le_n 20)) as (c & X & Y).
    destruct (sha1_streaming buf' ps' last' (repeat 0 20) 20 L' B3 B4 (le_n 20)) as (c' & X' & Y').
    exists c, c'. rewrite Y, Y', E. auto.
  - destruct (sha256_streaming buf ps last (repeat 0 32) 32 L B1 B2 (le_n 32) ltac:(cbn [In]; intros F; repeat destruct F as [F|F]; try discriminate; exact F)) as (c & X & Y).
    destruct (sha256_streaming buf' ps' last' (repeat 0 32) 32 L' B3 B4 (le_n 32) ltac:(cbn [In]; intros F; repeat destruct F as [F|F]; try discriminate; exact F)) as (c' & X' & Y').
    exists c, c'. rewrite Y, Y', E. auto.
Qed.
Print Assumptions digest_division.

(** The padding of the standards fills whole blocks, with less than one block of zeros. *)
Theorem pad_whole_blocks : forall len msg, length len = 8%nat ->
  (exists q, length (pad len msg) = 64 * q)%nat /\
  exists z, (z < 64)%nat /\ pad len msg = msg ++ 128 :: repeat 0 z ++ len.
Proof.
  intros len msg L. split; [now apply pad_length|].
  exists ((119 - length msg mod 64) mod 64)%nat. split; [|reflexivity]. apply Nat.mod_upper_bound. discriminate.
Qed.
Print Assumptions pad_whole_blocks.

(** ** The bytes of SHA-256 in a buffer of 20, 24 or 28 cells: one more is written. *)
Theorem sha256_tobytes_overflow_refuted : forall c out len, In len [20; 24; 28]%nat -> length out = len ->
  sha256_tobytes c out len = None.
Proof. exact sha256_tobytes_overflow. Qed.
Print Assumptions sha256_tobytes_overflow_refuted.

(** ** Cases *)

(** 70 letters in pieces of 3, 64, 0 and 3, with a buffer that is not zero; the
    expected values are those of another implementation. *)
Definition letters : list N := map (fun i => 97 + N.of_nat (i mod 26)) (seq 0 70).
Definition division : list (list N) := [firstn 3 letters; firstn 64 (skipn 3 letters); []].
Example division_ok : concat division ++ skipn 67 letters = letters.
Proof. vm_compute. reflexivity. Qed.
Example division_bytes : Forall bytes division /\ bytes (skipn 67 letters).
Proof. unfold bytes. split; repeat constructor. Qed.
Example md5_case :
  (c <- calc_all md5_regs md5_calc_block length_le (md5_init (repeat 7 64)) division (skipn 67 letters) ;;
   md5_tobytes c (repeat 0 16) 16) =
  Some [212; 165; 27; 56; 69; 77; 168; 34; 230; 135; 118; 190; 176; 111; 49; 33].
Proof. vm_compute. reflexivity. Qed.
Example md5_case_spec : md5 letters =
  [212; 165; 27; 56; 69; 77; 168; 34; 230; 135; 118; 190; 176; 111; 49; 33].
Proof. vm_compute. reflexivity. Qed.
Example sha1_case :
  (c <- calc_all sha1_regs sha1_calc_block length_be (sha1_init (repeat 7 64)) division (skipn 67 letters) ;;
   sha1_tobytes c (repeat 0 20) 20) =
  Some [147; 122; 145; 121; 187; 68; 186; 192; 78; 234; 106; 253; 174; 20; 9; 210; 61; 9; 194; 199].
Proof. vm_compute. reflexivity. Qed.
Example sha1_case_spec : sha1 letters =
  [147; 122; 145; 121; 187; 68; 186; 192; 78; 234; 106; 253; 174; 20; 9; 210; 61; 9; 194; 199].
Proof. vm_compute. reflexivity. Qed.
Example sha256_case :
  (c <- calc_all sha256_regs sha256_calc_block length_be (sha256_init (repeat 7 64)) division (skipn 67 letters) ;;
   sha256_tobytes c (repeat 0 32) 32) =
  Some [178; 138; 82; 222; 122; 41; 124; 130; 14; 209; 132; 66; 193; 54; 151; 51; 164; 78; 205; 175; 150; 128; 153; 91; 251; 156; 81; 145; 192; 223; 212; 55].
Proof. vm_compute. reflexivity. Qed.
Example sha256_case_spec : sha256 letters =
  [178; 138; 82; 222; 122; 41; 124; 130; 14; 209; 132; 66; 193; 54; 151; 51; 164; 78; 205; 175; 150; 128; 153; 91; 251; 156; 81; 145; 192; 223; 212; 55].
Proof. vm_compute. reflexivity. Qed.
Example md5_empty_hex :
  (c <- calc_all md5_regs md5_calc_block length_le (md5_init (repeat 0 64)) [] [] ;; md5_tostring c (repeat 1 40) 40) =
  Some ([100; 52; 49; 100; 56; 99; 100; 57; 56; 102; 48; 48; 98; 50; 48; 52; 101; 57; 56; 48; 48; 57; 57; 56; 101; 99; 102; 56; 52; 50; 55; 101] ++ 0 :: repeat 1 7).
Proof. vm_compute. reflexivity. Qed.
Example sha256_short_out :
  (c <- calc_all sha256_regs sha256_calc_block length_be (sha256_init (repeat 0 64)) [] [97; 98; 99] ;;
   sha256_tobytes c (repeat 1 6) 5) = Some (firstn 5 (sha256 [97; 98; 99]) ++ [1]).
Proof. vm_compute. reflexivity. Qed.

(** * The digests as their standards define them

    MD5: RFC 1321.  SHA-1 and SHA-256: FIPS 180-4.  A message is a list of bytes;
    words are numbers below 2^32. *)

From Coq Require Import List Arith NArith Bool.
From Verif Require Import EndianSpec.
Import ListNotations.
Local Open Scope N_scope.

(** ** Words *)

Definition add (x y : N) : N := (x + y) mod 2 ^ 32.
Definition sum (l : list N) : N := fold_right N.add 0 l mod 2 ^ 32.
Definition rotl (n x : N) : N := x mod 2 ^ (32 - n) * 2 ^ n + x / 2 ^ (32 - n).
Definition rotr (n x : N) : N := x mod 2 ^ n * 2 ^ (32 - n) + x / 2 ^ n.
Definition shr (n x : N) : N := x / 2 ^ n.
Definition neg (x : N) : N := 2 ^ 32 - 1 - x.

(** ** Blocks *)

(** Cut into pieces of [n]. *)
Fixpoint cut (fuel n : nat) (l : list N) : list (list N) :=
  match fuel, l with
  | S fuel', _ :: _ => firstn n l :: cut fuel' n (skipn n l)
  | _, _ => []
  end.
Definition pieces (n : nat) (l : list N) : list (list N) := cut (length l) n l.

(** The number of bits as 8 bytes, from the lowest or the highest. *)
Definition bits (msg : list N) : N := 8 * N.of_nat (length msg).
Definition bytes_le (k : nat) (x : N) : list N := map (fun i => x / 256 ^ N.of_nat i mod 256) (seq 0 k).
Definition bytes_be (k : nat) (x : N) : list N := rev (bytes_le k x).

(** The message, a bit one, as few zeros as fill up the last block, the length. *)
Definition pad (len : list N) (msg : list N) : list N :=
  msg ++ 128 :: repeat 0 ((119 - length msg mod 64) mod 64) ++ len.

Definition le_value (l : list N) : N := be_value (rev l).

(** ** MD5 *)

(** T[i] = floor (2^32 * abs (sin i)), i = 1..64. *)
Definition md5_T : list N :=
  [0xd76aa478; 0xe8c7b756; 0x242070db; 0xc1bdceee; 0xf57c0faf; 0x4787c62a; 0xa8304613; 0xfd469501;
   0x698098d8; 0x8b44f7af; 0xffff5bb1; 0x895cd7be; 0x6b901122; 0xfd987193; 0xa679438e; 0x49b40821;
   0xf61e2562; 0xc040b340; 0x265e5a51; 0xe9b6c7aa; 0xd62f105d; 0x02441453; 0xd8a1e681; 0xe7d3fbc8;
   0x21e1cde6; 0xc33707d6; 0xf4d50d87; 0x455a14ed; 0xa9e3e905; 0xfcefa3f8; 0x676f02d9; 0x8d2a4c8a;
   0xfffa3942; 0x8771f681; 0x6d9d6122; 0xfde5380c; 0xa4beea44; 0x4bdecfa9; 0xf6bb4b60; 0xbebfbc70;
   0x289b7ec6; 0xeaa127fa; 0xd4ef3085; 0x04881d05; 0xd9d4d039; 0xe6db99e5; 0x1fa27cf8; 0xc4ac5665;
   0xf4292244; 0x432aff97; 0xab9423a7; 0xfc93a039; 0x655b59c3; 0x8f0ccc92; 0xffeff47d; 0x85845dd1;
   0x6fa87e4f; 0xfe2ce6e0; 0xa3014314; 0x4e0811a1; 0xf7537e82; 0xbd3af235; 0x2ad7d2bb; 0xeb86d391].

Definition md5_shift (i : nat) : N :=
  nth (i mod 4) (nth (i / 16) [[7; 12; 17; 22]; [5; 9; 14; 20]; [4; 11; 16; 23]; [6; 10; 15; 21]] []) 0.

Definition md5_index (i : nat) : nat :=
  match (i / 16)%nat with
  | 0 => i
  | 1 => (5 * i + 1) mod 16
  | 2 => (3 * i + 5) mod 16
  | _ => (7 * i) mod 16
  end%nat.

Definition md5_f (i : nat) (x y z : N) : N :=
  match (i / 16)%nat with
  | 0%nat => N.lor (N.land x y) (N.land (neg x) z)
  | 1%nat => N.lor (N.land x z) (N.land y (neg z))
  | 2%nat => N.lxor (N.lxor x y) z
  | _ => N.lxor y (N.lor x (neg z))
  end.

Definition md5_round (X : list N) (v : N * N * N * N) (i : nat) : N * N * N * N :=
  let '(a, b, c, d) := v in
  (d, add b (rotl (md5_shift i) (sum [a; md5_f i b c d; nth (md5_index i) X 0; nth i md5_T 0])), b, c).

Definition md5_compress (h : N * N * N * N) (block : list N) : N * N * N * N :=
  let '(A, B, C, D) := h in
  let '(a, b, c, d) := fold_left (md5_round (map le_value (pieces 4 block))) (seq 0 64) h in
  (add A a, add B b, add C c, add D d).

(** The digest; a message may have any length, which counts modulo 2^64. *)
Definition md5 (msg : list N) : list N :=
  let '(A, B, C, D) :=
    fold_left md5_compress (pieces 64 (pad (bytes_le 8 (bits msg)) msg))
              (0x67452301, 0xefcdab89, 0x98badcfe, 0x10325476) in
  flat_map (bytes_le 4) [A; B; C; D].

(** ** SHA-1 *)

Definition Ch (x y z : N) : N := N.lxor (N.land x y) (N.land (neg x) z).
Definition Parity (x y z : N) : N := N.lxor (N.lxor x y) z.
Definition Maj (x y z : N) : N := N.lxor (N.lxor (N.land x y) (N.land x z)) (N.land y z).

Definition sha1_f (t : nat) : N -> N -> N -> N :=
  match (t / 20)%nat with 0%nat => Ch | 1%nat => Parity | 2%nat => Maj | _ => Parity end.

(** The integer parts of 2^30 times the square roots of 2, 3, 5 and 10. *)
Definition sha1_K (t : nat) : N := N.sqrt (nth (t / 20) [2; 3; 5; 10] 0 * 2 ^ 60).

(** The message schedule [w] grows by one word. *)
Definition sha1_next (w : list N) : list N :=
  let t := length w in
  w ++ [rotl 1 (N.lxor (N.lxor (N.lxor (nth (t - 3) w 0) (nth (t - 8) w 0)) (nth (t - 14) w 0)) (nth (t - 16) w 0))].

Definition sha1_schedule (block : list N) : list N :=
  Nat.iter 64 sha1_next (map be_value (pieces 4 block)).

Definition sha1_round (w : list N) (v : N * N * N * N * N) (t : nat) : N * N * N * N * N :=
  let '(a, b, c, d, e) := v in
  (sum [rotl 5 a; sha1_f t b c d; e; sha1_K t; nth t w 0], a, rotl 30 b, c, d).

Definition sha1_compress (h : N * N * N * N * N) (block : list N) : N * N * N * N * N :=
  let '(H0, H1, H2, H3, H4) := h in
  let '(a, b, c, d, e) := fold_left (sha1_round (sha1_schedule block)) (seq 0 80) h in
  (add H0 a, add H1 b, add H2 c, add H3 d, add H4 e).

(** The digest of a message of less than 2^64 bits. *)
Definition sha1 (msg : list N) : list N :=
  let '(H0, H1, H2, H3, H4) :=
    fold_left sha1_compress (pieces 64 (pad (bytes_be 8 (bits msg)) msg))
              (0x67452301, 0xefcdab89, 0x98badcfe, 0x10325476, 0xc3d2e1f0) in
  flat_map (bytes_be 4) [H0; H1; H2; H3; H4].

(** ** SHA-256 *)

Definition primes : list N :=
  [2; 3; 5; 7; 11; 13; 17; 19; 23; 29; 31; 37; 41; 43; 47; 53; 59; 61; 67; 71; 73; 79; 83; 89; 97; 101; 103;
   107; 109; 113; 127; 131; 137; 139; 149; 151; 157; 163; 167; 173; 179; 181; 191; 193; 197; 199; 211; 223;
   227; 229; 233; 239; 241; 251; 257; 263; 269; 271; 277; 281; 283; 293; 307; 311].

(** The integer part of the cube root, bit by bit from [2 ^ k] down. *)
Fixpoint cbrt (k : nat) (r x : N) : N :=
  let r' := r + 2 ^ N.of_nat k in
  let r := if r' * r' * r' <=? x then r' else r in
  match k with O => r | S k' => cbrt k' r x end.

(** The first 32 bits of the fractional parts of the cube roots and of the square
    roots of the primes. *)
Definition sha256_K (t : nat) : N := cbrt 34 0 (nth t primes 0 * 2 ^ 96) mod 2 ^ 32.
Definition sha256_H (i : nat) : N := N.sqrt (nth i primes 0 * 2 ^ 64) mod 2 ^ 32.

Definition Sigma0 (x : N) : N := N.lxor (N.lxor (rotr 2 x) (rotr 13 x)) (rotr 22 x).
Definition Sigma1 (x : N) : N := N.lxor (N.lxor (rotr 6 x) (rotr 11 x)) (rotr 25 x).
Definition sigma0 (x : N) : N := N.lxor (N.lxor (rotr 7 x) (rotr 18 x)) (shr 3 x).
Definition sigma1 (x : N) : N := N.lxor (N.lxor (rotr 17 x) (rotr 19 x)) (shr 10 x).

Definition sha256_next (w : list N) : list N :=
  let t := length w in
  w ++ [sum [sigma1 (nth (t - 2) w 0); nth (t - 7) w 0; sigma0 (nth (t - 15) w 0); nth (t - 16) w 0]].

Definition sha256_schedule (block : list N) : list N :=
  Nat.iter 48 sha256_next (map be_value (pieces 4 block)).

(** The eight variables or hash values. *)
Definition eight : Type := (N * N * N * N * (N * N * N * N))%type.

Definition sha256_round (w : list N) (v : eight) (t : nat) : eight :=
  let '(a, b, c, d, (e, f, g, h)) := v in
  let T1 := sum [h; Sigma1 e; Ch e f g; sha256_K t; nth t w 0] in
  let T2 := sum [Sigma0 a; Maj a b c] in
  (add T1 T2, a, b, c, (add d T1, e, f, g)).

Definition sha256_compress (hh : eight) (block : list N) : eight :=
  let '(H0, H1, H2, H3, (H4, H5, H6, H7)) := hh in
  let '(a, b, c, d, (e, f, g, h)) := fold_left (sha256_round (sha256_schedule block)) (seq 0 64) hh in
  (add a H0, add b H1, add c H2, add d H3, (add e H4, add f H5, add g H6, add h H7)).

Definition sha256 (msg : list N) : list N :=
  let '(H0, H1, H2, H3, (H4, H5, H6, H7)) :=
    fold_left sha256_compress (pieces 64 (pad (bytes_be 8 (bits msg)) msg))
              (sha256_H 0, sha256_H 1, sha256_H 2, sha256_H 3, (sha256_H 4, sha256_H 5, sha256_H 6, sha256_H 7)) in
  flat_map (bytes_be 4) [H0; H1; H2; H3; H4; H5; H6; H7].

(** ** Hexadecimal digits *)
Definition hex_digit (d : N) : N := nth (N.to_nat d) [48; 49; 50; 51; 52; 53; 54; 55; 56; 57; 97; 98; 99; 100; 101; 102] 0.
Definition hex (l : list N) : list N := flat_map (fun b => [hex_digit (b / 16); hex_digit (b mod 16)]) l.

(** ** Giving a digest out *)

(** What is in the buffer [out] after the first [len] bytes of [d] have been put there. *)
Definition put (out d : list N) (len : nat) : list N := firstn len d ++ skipn (Nat.min len (length d)) out.

(** The same as a string: as many bytes of [d] in hexadecimal as leave room for a
    zero in [len] cells, then the zero. *)
Definition put_hex (out d : list N) (len : nat) : list N :=
  if (len =? 0)%nat then out
  else
    let k := Nat.min (length d) ((len - 1) / 2) in
    hex (firstn k d) ++ 0 :: skipn (2 * k + 1) out.

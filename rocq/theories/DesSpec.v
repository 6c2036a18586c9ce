(** DES as published (FIPS 46-3), on lists of bits numbered from 1 at the most significant end. *)
Require Import List Arith NArith Bool.
Import ListNotations.

(** The [n] low bits of a number, most significant first. *)
Fixpoint bits (n : nat) (x : N) : list bool := match n with O => [] | S m => N.testbit x (N.of_nat m) :: bits m x end.

(** Initial permutation *)
Definition IP : list nat :=
  [58; 50; 42; 34; 26; 18; 10; 2; 60; 52; 44; 36; 28; 20; 12; 4; 62; 54; 46; 38; 30; 22; 14; 6;
  64; 56; 48; 40; 32; 24; 16; 8; 57; 49; 41; 33; 25; 17; 9; 1; 59; 51; 43; 35; 27; 19; 11; 3;
  61; 53; 45; 37; 29; 21; 13; 5; 63; 55; 47; 39; 31; 23; 15; 7].
(** Inverse initial permutation *)
Definition FP : list nat :=
  [40; 8; 48; 16; 56; 24; 64; 32; 39; 7; 47; 15; 55; 23; 63; 31; 38; 6; 46; 14; 54; 22; 62; 30;
  37; 5; 45; 13; 53; 21; 61; 29; 36; 4; 44; 12; 52; 20; 60; 28; 35; 3; 43; 11; 51; 19; 59; 27;
  34; 2; 42; 10; 50; 18; 58; 26; 33; 1; 41; 9; 49; 17; 57; 25].
(** Bit selection table *)
Definition E : list nat :=
  [32; 1; 2; 3; 4; 5; 4; 5; 6; 7; 8; 9; 8; 9; 10; 11; 12; 13; 12; 13; 14; 15; 16; 17;
  16; 17; 18; 19; 20; 21; 20; 21; 22; 23; 24; 25; 24; 25; 26; 27; 28; 29; 28; 29; 30; 31; 32; 1].
(** Permutation p *)
Definition P : list nat :=
  [16; 7; 20; 21; 29; 12; 28; 17; 1; 15; 23; 26; 5; 18; 31; 10; 2; 8; 24; 14; 32; 27; 3; 9;
  19; 13; 30; 6; 22; 11; 4; 25].
(** Permuted choice 1 *)
Definition PC1 : list nat :=
  [57; 49; 41; 33; 25; 17; 9; 1; 58; 50; 42; 34; 26; 18; 10; 2; 59; 51; 43; 35; 27; 19; 11; 3;
  60; 52; 44; 36; 63; 55; 47; 39; 31; 23; 15; 7; 62; 54; 46; 38; 30; 22; 14; 6; 61; 53; 45; 37;
  29; 21; 13; 5; 28; 20; 12; 4].
(** Permuted choice 2 *)
Definition PC2 : list nat :=
  [14; 17; 11; 24; 1; 5; 3; 28; 15; 6; 21; 10; 23; 19; 12; 4; 26; 8; 16; 7; 27; 20; 13; 2;
  41; 52; 31; 37; 47; 55; 30; 40; 51; 45; 33; 48; 44; 49; 39; 56; 34; 53; 46; 42; 50; 36; 29; 32].
(** Left shifts *)
Definition shifts : list nat :=
  [1; 1; 2; 2; 2; 2; 2; 2; 1; 2; 2; 2; 2; 2; 2; 1].
(** Substitution boxes S1 to S8, four rows of sixteen *)
Definition Sboxes : list (list N) :=
  [[14; 4; 13; 1; 2; 15; 11; 8; 3; 10; 6; 12; 5; 9; 0; 7; 0; 15; 7; 4; 14; 2; 13; 1; 10; 6; 12; 11; 9; 5; 3; 8;
    4; 1; 14; 8; 13; 6; 2; 11; 15; 12; 9; 7; 3; 10; 5; 0; 15; 12; 8; 2; 4; 9; 1; 7; 5; 11; 3; 14; 10; 0; 6; 13];
   [15; 1; 8; 14; 6; 11; 3; 4; 9; 7; 2; 13; 12; 0; 5; 10; 3; 13; 4; 7; 15; 2; 8; 14; 12; 0; 1; 10; 6; 9; 11; 5;
    0; 14; 7; 11; 10; 4; 13; 1; 5; 8; 12; 6; 9; 3; 2; 15; 13; 8; 10; 1; 3; 15; 4; 2; 11; 6; 7; 12; 0; 5; 14; 9];
   [10; 0; 9; 14; 6; 3; 15; 5; 1; 13; 12; 7; 11; 4; 2; 8; 13; 7; 0; 9; 3; 4; 6; 10; 2; 8; 5; 14; 12; 11; 15; 1;
    13; 6; 4; 9; 8; 15; 3; 0; 11; 1; 2; 12; 5; 10; 14; 7; 1; 10; 13; 0; 6; 9; 8; 7; 4; 15; 14; 3; 11; 5; 2; 12];
   [7; 13; 14; 3; 0; 6; 9; 10; 1; 2; 8; 5; 11; 12; 4; 15; 13; 8; 11; 5; 6; 15; 0; 3; 4; 7; 2; 12; 1; 10; 14; 9;
    10; 6; 9; 0; 12; 11; 7; 13; 15; 1; 3; 14; 5; 2; 8; 4; 3; 15; 0; 6; 10; 1; 13; 8; 9; 4; 5; 11; 12; 7; 2; 14];
   [2; 12; 4; 1; 7; 10; 11; 6; 8; 5; 3; 15; 13; 0; 14; 9; 14; 11; 2; 12; 4; 7; 13; 1; 5; 0; 15; 10; 3; 9; 8; 6;
    4; 2; 1; 11; 10; 13; 7; 8; 15; 9; 12; 5; 6; 3; 0; 14; 11; 8; 12; 7; 1; 14; 2; 13; 6; 15; 0; 9; 10; 4; 5; 3];
   [12; 1; 10; 15; 9; 2; 6; 8; 0; 13; 3; 4; 14; 7; 5; 11; 10; 15; 4; 2; 7; 12; 9; 5; 6; 1; 13; 14; 0; 11; 3; 8;
    9; 14; 15; 5; 2; 8; 12; 3; 7; 0; 4; 10; 1; 13; 11; 6; 4; 3; 2; 12; 9; 5; 15; 10; 11; 14; 1; 7; 6; 0; 8; 13];
   [4; 11; 2; 14; 15; 0; 8; 13; 3; 12; 9; 7; 5; 10; 6; 1; 13; 0; 11; 7; 4; 9; 1; 10; 14; 3; 5; 12; 2; 15; 8; 6;
    1; 4; 11; 13; 12; 3; 7; 14; 10; 15; 6; 8; 0; 5; 9; 2; 6; 11; 13; 8; 1; 4; 10; 7; 9; 5; 0; 15; 14; 2; 3; 12];
   [13; 2; 8; 4; 6; 15; 11; 1; 10; 9; 3; 14; 5; 0; 12; 7; 1; 15; 13; 8; 10; 3; 7; 4; 12; 5; 6; 11; 0; 14; 9; 2;
    7; 11; 4; 1; 9; 12; 14; 2; 0; 6; 10; 13; 15; 3; 5; 8; 2; 1; 14; 7; 4; 10; 8; 13; 15; 12; 9; 0; 3; 5; 6; 11]]%N.

Definition select (t : list nat) (bs : list bool) : list bool := map (fun i => nth (i - 1) bs false) t.
Fixpoint xor_bits (a b : list bool) : list bool := match a, b with x :: a, y :: b => xorb x y :: xor_bits a b | _, _ => [] end.
Definition rotate (n : nat) (bs : list bool) : list bool := skipn n bs ++ firstn n bs.
(** The first and last of six bits select the row, the middle four the column. *)
Definition b2n (b : bool) : nat := if b then 1 else 0.
Definition substitute (t : list N) (g : list bool) : list bool :=
  match g with
  | [b1; b2; b3; b4; b5; b6] => bits 4 (nth ((2 * b2n b1 + b2n b6) * 16 + (8 * b2n b2 + 4 * b2n b3 + 2 * b2n b4 + b2n b5)) t 0%N)
  | _ => []
  end.
Fixpoint substitute_all (ts : list (list N)) (bs : list bool) : list bool :=
  match ts with [] => [] | t :: ts => substitute t (firstn 6 bs) ++ substitute_all ts (skipn 6 bs) end.
(** The cipher function. *)
Definition cipher_f (r k : list bool) : list bool := select P (substitute_all Sboxes (xor_bits (select E r) k)).
Fixpoint schedule (ms : list nat) (c d : list bool) : list (list bool) :=
  match ms with
  | [] => []
  | m :: ms => let c := rotate m c in let d := rotate m d in select PC2 (c ++ d) :: schedule ms c d
  end.
Definition key_schedule (key : list bool) : list (list bool) :=
  let k := select PC1 key in schedule shifts (firstn 28 k) (skipn 28 k).
Fixpoint rounds (ks : list (list bool)) (l r : list bool) : list bool * list bool :=
  match ks with [] => (l, r) | k :: ks => rounds ks r (xor_bits l (cipher_f r k)) end.
(** Enciphering and deciphering a block: the sub-keys are used in order or in reverse order. *)
Definition des_block (encipher : bool) (key block : list bool) : list bool :=
  let ks := key_schedule key in
  let b := select IP block in
  let '(l, r) := rounds (if encipher then ks else rev ks) (firstn 32 b) (skipn 32 b) in
  select FP (r ++ l).
(** Bytes needed to fill the last block of eight. *)
Definition padding (n : nat) : nat := 8 * ((n + 7) / 8) - n.

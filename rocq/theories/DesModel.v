(** Model of src/mln_des.c: DES and triple DES on 64-bit words, and on buffers. All words are below 2^64, no shift loses a bit that the code keeps. *)
Require Import List Arith NArith Bool.
Require Import Verif.Base.
Import ListNotations.
Open Scope N_scope.

(** src/mln_des.c:18-23 *)
Definition begin_permutation : list N :=
  [57; 49; 41; 33; 25; 17; 9; 1; 59; 51; 43; 35; 27; 19; 11; 3; 61; 53; 45; 37; 29; 21; 13; 5;
  63; 55; 47; 39; 31; 23; 15; 7; 56; 48; 40; 32; 24; 16; 8; 0; 58; 50; 42; 34; 26; 18; 10; 2;
  60; 52; 44; 36; 28; 20; 12; 4; 62; 54; 46; 38; 30; 22; 14; 6].
(** src/mln_des.c:25-30 *)
Definition key_permutation : list N :=
  [56; 48; 40; 32; 24; 16; 8; 0; 57; 49; 41; 33; 25; 17; 9; 1; 58; 50; 42; 34; 26; 18; 10; 2;
  59; 51; 43; 35; 62; 54; 46; 38; 30; 22; 14; 6; 61; 53; 45; 37; 29; 21; 13; 5; 60; 52; 44; 36;
  28; 20; 12; 4; 27; 19; 11; 3].
(** src/mln_des.c:32-34 *)
Definition move_times : list N :=
  [1; 1; 2; 2; 2; 2; 2; 2; 1; 2; 2; 2; 2; 2; 2; 1].
(** src/mln_des.c:36-41 *)
Definition compression_permutation : list N :=
  [13; 16; 10; 23; 0; 4; 2; 27; 14; 5; 20; 9; 22; 18; 11; 3; 25; 7; 15; 6; 26; 19; 12; 1;
  40; 51; 30; 36; 46; 54; 29; 39; 50; 44; 32; 47; 43; 48; 38; 55; 33; 52; 45; 41; 49; 35; 28; 31].
(** src/mln_des.c:43-48 *)
Definition extension_permutation : list N :=
  [31; 0; 1; 2; 3; 4; 3; 4; 5; 6; 7; 8; 7; 8; 9; 10; 11; 12; 11; 12; 13; 14; 15; 16;
  15; 16; 17; 18; 19; 20; 19; 20; 21; 22; 23; 24; 23; 24; 25; 26; 27; 28; 27; 28; 29; 30; 31; 0].
(** src/mln_des.c:101-104 *)
Definition p_permutation : list N :=
  [15; 6; 19; 20; 28; 11; 27; 16; 0; 14; 22; 25; 4; 17; 30; 9; 1; 7; 23; 13; 31; 26; 2; 8;
  18; 12; 29; 5; 21; 10; 3; 24].
(** src/mln_des.c:106-111 *)
Definition final_permutation : list N :=
  [39; 7; 47; 15; 55; 23; 63; 31; 38; 6; 46; 14; 54; 22; 62; 30; 37; 5; 45; 13; 53; 21; 61; 29;
  36; 4; 44; 12; 52; 20; 60; 28; 35; 3; 43; 11; 51; 19; 59; 27; 34; 2; 42; 10; 50; 18; 58; 26;
  33; 1; 41; 9; 49; 17; 57; 25; 32; 0; 40; 8; 48; 16; 56; 24].
(** src/mln_des.c:50-99 *)
Definition s_box : list (list N) :=
  [[14; 4; 13; 1; 2; 15; 11; 8; 3; 10; 6; 12; 5; 9; 0; 7; 0; 15; 7; 4; 14; 2; 13; 1; 10; 6; 12; 11; 9; 5; 3; 8;
    4; 1; 14; 8; 13; 6; 2; 11; 15; 12; 9; 7; 3; 10; 5; 0; 15; 12; 8; 2; 4; 9; 1; 7; 5; 11; 3; 14; 10; 0; 6; 13];
   [15; 1; 8; 14; 6; 11; 3; 4; 9; 7; 2; 13; 12; 0; 5; 10; 3; 13; 4; 7; 15; 2; 8; 14; 12; 0; 1; 10; 6; 9; 11; 5;
    0; 14; 7; 11; 10; 4; 13; 1; 5; 8; 12; 6; 9; 3; 2; 15; 13; 8; 10; 1; 3; 15; 4; 2; 11; 6; 7; 12; 0; 5; 14; 9];
   [10; 0; 9; 14; 6; 3; 15; 5; 1; 13; 12; 7; 11; 4; 2; 8; 13; 7; 0; 9; 3; 4; 6; 10; 2; 8; 5; 14; 12; 11; 15; 1;
    13; 6; 4; 9; 8; 15; 3; 0; 11; 1; 2; 12; 5; 10; 14; 7; 1; 10; 13; 0; 6; 9; 8; 7; 4; 15; 14; 3; 11; 5; 2; 12];
   [7; 13; 14; 3; 0; 6; 9; 10; 1; 2; 8; 5; 11; 12; 4; 15; 13; 8; 11; 5; 6; 15; 0; 3; 4; 7; 2; 12; 1; 10; 14; 9;
    10; 6; 9; 0; 12; 11; 7; 13; 15; 1; 3; 14; 5; 2; 8; 4; 3; 15; 0; 6; 10; 1; 13; 8; 9; 4; 5; 11; 12; 7; 2; 14];
   [2; 12; 4; 1; 7; 10; 11; 6; 8; 5; 3; 15; 13; 0; 14; 9; 14; 11; 2; 12; 4; 7; 13; 1; 5; 0; 15; 10; 3; 9; 8; 6;
    4; 2; 1; 11; 10; 13; 7; 8; 15; 9; 12; 5; 6; 3; 0; 14; 11; 8; 12; 7; 1; 14; 2; 13; 6; 15; 0; 9; 10; 4; 5; 3];
   [12; 1; 10; 15; 9; 2; 6; 8; 0; 13; 3; 4; 14; 7; 5; 11; 10; 15; 4; 2; 7; 12; 9; 5; 6; 1; 13; 14; 0; 11; 3; 8;
    9; 14; 15; 5; 2; 8; 12; 3; 7; 0; 4; 10; 1; 13; 11; 6; 4; 3; 2; 12; 9; 5; 15; 10; 11; 14; 1; 7; 6; 0; 8; 13];
   [4; 11; 2; 14; 15; 0; 8; 13; 3; 12; 9; 7; 5; 10; 6; 1; 13; 0; 11; 7; 4; 9; 1; 10; 14; 3; 5; 12; 2; 15; 8; 6;
    1; 4; 11; 13; 12; 3; 7; 14; 10; 15; 6; 8; 0; 5; 9; 2; 6; 11; 13; 8; 1; 4; 10; 7; 9; 5; 0; 15; 14; 2; 3; 12];
   [13; 2; 8; 4; 6; 15; 11; 1; 10; 9; 3; 14; 5; 0; 12; 7; 1; 15; 13; 8; 10; 3; 7; 4; 12; 5; 6; 11; 0; 14; 9; 2;
    7; 11; 4; 1; 9; 12; 14; 2; 0; 6; 10; 13; 15; 3; 5; 8; 2; 1; 14; 7; 4; 10; 8; 13; 15; 12; 9; 0; 3; 5; 6; 11]].

(** The loops over a table: bit [i] of the result, counted down from [length tbl - 1], is bit [win - 1 - *scan] of the argument.
    src/mln_des.c:121-123, 132-134, 204-206, 216-218, 242-244 *)
Fixpoint permute (win : N) (tbl : list N) (x : N) : N :=
  match tbl with
  | [] => 0
  | s :: r => N.lor (N.shiftl (N.land (N.shiftr x (win - 1 - s)) 1) (N.of_nat (length r))) (permute win r x)
  end.
(** src/mln_des.c:253-255: bit [i], counted up, is bit [*scan] *)
Fixpoint permute_up (i : N) (tbl : list N) (x : N) : N :=
  match tbl with
  | [] => 0
  | s :: r => N.lor (N.shiftl (N.land (N.shiftr x s) 1) i) (permute_up (i + 1) r x)
  end.
Definition mask28 : N := 0xfffffff.
Definition mask32 : N := 0xffffffff.
Definition mask48 : N := 0xffffffffffff.
Definition mask56 : N := 0xffffffffffffff.
(** src/mln_des.c:199-258 *)
Definition begin_permute (x : N) : N := permute 64 begin_permutation x.
Definition extension_permute (x : N) : N := N.land (permute 32 extension_permutation x) mask48.
Definition p_permute (x : N) : N := N.land (permute 32 p_permutation x) mask32.
Definition final_permute (x : N) : N := permute_up 0 final_permutation x.
(** src/mln_des.c:227-232; the code goes through the boxes from the last to the first, [i = length r] *)
Definition box_index (v : N) : N := N.land (N.shiftr v 1) 15 + N.shiftl (N.lor (N.land v 1) (N.shiftl (N.land (N.shiftr v 5) 1) 1)) 4.
Fixpoint s_loop (boxes : list (list N)) (x : N) : N :=
  match boxes with
  | [] => 0
  | t :: r =>
      let v := N.land (N.shiftr x (6 * N.of_nat (length r))) 63 in
      N.lor (N.shiftl (N.land (nth (N.to_nat (box_index v)) t 0) 15) (4 * N.of_nat (length r))) (s_loop r x)
  end.
Definition s_permute (x : N) : N := N.land (s_loop s_box x) mask32.

(** include/mln_des.h:39 __M_DES_ROL28 *)
Definition rol28 (x n : N) : N := N.land (N.lor (N.shiftr x (28 - n)) (N.shiftl x n)) mask28.
(** src/mln_des.c:125-137 the loop over the sixteen rounds; the sub-keys, first round first *)
Fixpoint key_loop (moves : list N) (k : N) : list N :=
  match moves with
  | [] => []
  | n :: r =>
      let h := rol28 (N.land (N.shiftr k 28) mask28) n in
      let l := rol28 (N.land k mask28) n in
      let k := N.land (N.lor (N.shiftl h 28) l) mask56 in
      N.land (permute 56 compression_permutation k) mask48 :: key_loop r k
  end.
(** src/mln_des.c:114-138 mln_des_init *)
Definition des_init (key : N) : list N := key_loop move_times (permute 64 key_permutation key).

(** src/mln_des.c:175-182 one round *)
Definition round (lr : N * N) (k : N) : N * N :=
  let '(lft, rgt) := lr in
  (rgt, N.lxor (p_permute (s_permute (N.lxor (extension_permute rgt) k))) lft).
(** src/mln_des.c:164-197 mln_des *)
Definition des (keys : list N) (msg : N) (is_encrypt : bool) : N :=
  let msg := begin_permute msg in
  let lr := (N.land (N.shiftr msg 32) mask32, N.land msg mask32) in
  let '(lft, rgt) := fold_left round (if is_encrypt then keys else rev keys) lr in
  final_permute (N.lor (N.shiftl (N.land rgt mask32) 32) (N.land lft mask32)).
(** src/mln_des.c:324-331 mln_3des *)
Definition tdes (k1 k2 : list N) (msg : N) (is_encrypt : bool) : N :=
  if is_encrypt then des k1 (des k2 (des k1 msg true) false) true
  else des k1 (des k2 (des k1 msg false) true) false.

(** src/mln_des.c:269-278 eight bytes, padded with [fill], as a word; [i] is the number of bytes still wanted *)
Fixpoint take_word (i : nat) (inp : list N) (fill : N) : N * list N :=
  match i with
  | O => (0, inp)
  | S i =>
      let '(b, rest) := match inp with c :: r => (c, r) | [] => (fill, []) end in
      let '(w, rest) := take_word i rest fill in
      (N.lor (N.shiftl (N.land b 255) (8 * N.of_nat i)) w, rest)
  end.
(** src/mln_des.c:281-285 the bytes of a word *)
Fixpoint word_bytes (i : nat) (x : N) : list N :=
  match i with O => [] | S i => N.land (N.shiftr x (8 * N.of_nat i)) 255 :: word_bytes i x end.
(** src/mln_des.c:260-287 mln_des_buf, 333-360 mln_3des_buf: the bytes written to [out], of which there are at most [outlen]. Input and output
    do not overlap. The loop ends early when the output is full. *)
Fixpoint buf_loop (fuel : nat) (f : N -> N) (inp : list N) (outlen : nat) (fill : N) : option (list N) :=
  match inp with
  | [] => Some []
  | _ =>
      match fuel with
      | O => None
      | S fuel =>
          let '(w, rest) := take_word 8 inp fill in
          let bs := word_bytes 8 (f w) in
          if (outlen <? 8)%nat then Some (firstn outlen bs)
          else r <- buf_loop fuel f rest (outlen - 8) fill ;; Some (bs ++ r)
      end
  end.
Definition des_buf (keys inp : list N) (outlen : nat) (fill : N) (e : bool) : option (list N) :=
  buf_loop (length inp) (fun w => des keys w e) inp outlen fill.
Definition tdes_buf (k1 k2 inp : list N) (outlen : nat) (fill : N) (e : bool) : option (list N) :=
  buf_loop (length inp) (fun w => tdes k1 k2 w e) inp outlen fill.

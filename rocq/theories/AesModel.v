(** Model of the AES block cipher: src/mln_aes.c and the macros of include/mln_aes.h.
    Unsigned 32-bit words are [N] values; left shifts are cut to 32 bits with [u32].
    The context is the pair of the size code and the round key words.
    Simplified: allocation ([mln_aes_new], [mln_aes_pool_new]) is left out. *)
Require Import List Arith NArith Bool.
Require Import Verif.Base.
Import ListNotations.
Open Scope N_scope.

(** src/mln_aes.c:19-36 *)
Definition sbox : list N := [ 0x63; 0x7c; 0x77; 0x7b; 0xf2; 0x6b; 0x6f; 0xc5; 0x30; 0x01; 0x67; 0x2b; 0xfe; 0xd7; 0xab; 0x76;
  0xca; 0x82; 0xc9; 0x7d; 0xfa; 0x59; 0x47; 0xf0; 0xad; 0xd4; 0xa2; 0xaf; 0x9c; 0xa4; 0x72; 0xc0;
  0xb7; 0xfd; 0x93; 0x26; 0x36; 0x3f; 0xf7; 0xcc; 0x34; 0xa5; 0xe5; 0xf1; 0x71; 0xd8; 0x31; 0x15;
  0x04; 0xc7; 0x23; 0xc3; 0x18; 0x96; 0x05; 0x9a; 0x07; 0x12; 0x80; 0xe2; 0xeb; 0x27; 0xb2; 0x75;
  0x09; 0x83; 0x2c; 0x1a; 0x1b; 0x6e; 0x5a; 0xa0; 0x52; 0x3b; 0xd6; 0xb3; 0x29; 0xe3; 0x2f; 0x84;
  0x53; 0xd1; 0x00; 0xed; 0x20; 0xfc; 0xb1; 0x5b; 0x6a; 0xcb; 0xbe; 0x39; 0x4a; 0x4c; 0x58; 0xcf;
  0xd0; 0xef; 0xaa; 0xfb; 0x43; 0x4d; 0x33; 0x85; 0x45; 0xf9; 0x02; 0x7f; 0x50; 0x3c; 0x9f; 0xa8;
  0x51; 0xa3; 0x40; 0x8f; 0x92; 0x9d; 0x38; 0xf5; 0xbc; 0xb6; 0xda; 0x21; 0x10; 0xff; 0xf3; 0xd2;
  0xcd; 0x0c; 0x13; 0xec; 0x5f; 0x97; 0x44; 0x17; 0xc4; 0xa7; 0x7e; 0x3d; 0x64; 0x5d; 0x19; 0x73;
  0x60; 0x81; 0x4f; 0xdc; 0x22; 0x2a; 0x90; 0x88; 0x46; 0xee; 0xb8; 0x14; 0xde; 0x5e; 0x0b; 0xdb;
  0xe0; 0x32; 0x3a; 0x0a; 0x49; 0x06; 0x24; 0x5c; 0xc2; 0xd3; 0xac; 0x62; 0x91; 0x95; 0xe4; 0x79;
  0xe7; 0xc8; 0x37; 0x6d; 0x8d; 0xd5; 0x4e; 0xa9; 0x6c; 0x56; 0xf4; 0xea; 0x65; 0x7a; 0xae; 0x08;
  0xba; 0x78; 0x25; 0x2e; 0x1c; 0xa6; 0xb4; 0xc6; 0xe8; 0xdd; 0x74; 0x1f; 0x4b; 0xbd; 0x8b; 0x8a;
  0x70; 0x3e; 0xb5; 0x66; 0x48; 0x03; 0xf6; 0x0e; 0x61; 0x35; 0x57; 0xb9; 0x86; 0xc1; 0x1d; 0x9e;
  0xe1; 0xf8; 0x98; 0x11; 0x69; 0xd9; 0x8e; 0x94; 0x9b; 0x1e; 0x87; 0xe9; 0xce; 0x55; 0x28; 0xdf;
  0x8c; 0xa1; 0x89; 0x0d; 0xbf; 0xe6; 0x42; 0x68; 0x41; 0x99; 0x2d; 0x0f; 0xb0; 0x54; 0xbb; 0x16].
(** src/mln_aes.c:38-55 *)
Definition rsbox : list N := [ 0x52; 0x09; 0x6a; 0xd5; 0x30; 0x36; 0xa5; 0x38; 0xbf; 0x40; 0xa3; 0x9e; 0x81; 0xf3; 0xd7; 0xfb;
  0x7c; 0xe3; 0x39; 0x82; 0x9b; 0x2f; 0xff; 0x87; 0x34; 0x8e; 0x43; 0x44; 0xc4; 0xde; 0xe9; 0xcb;
  0x54; 0x7b; 0x94; 0x32; 0xa6; 0xc2; 0x23; 0x3d; 0xee; 0x4c; 0x95; 0x0b; 0x42; 0xfa; 0xc3; 0x4e;
  0x08; 0x2e; 0xa1; 0x66; 0x28; 0xd9; 0x24; 0xb2; 0x76; 0x5b; 0xa2; 0x49; 0x6d; 0x8b; 0xd1; 0x25;
  0x72; 0xf8; 0xf6; 0x64; 0x86; 0x68; 0x98; 0x16; 0xd4; 0xa4; 0x5c; 0xcc; 0x5d; 0x65; 0xb6; 0x92;
  0x6c; 0x70; 0x48; 0x50; 0xfd; 0xed; 0xb9; 0xda; 0x5e; 0x15; 0x46; 0x57; 0xa7; 0x8d; 0x9d; 0x84;
  0x90; 0xd8; 0xab; 0x00; 0x8c; 0xbc; 0xd3; 0x0a; 0xf7; 0xe4; 0x58; 0x05; 0xb8; 0xb3; 0x45; 0x06;
  0xd0; 0x2c; 0x1e; 0x8f; 0xca; 0x3f; 0x0f; 0x02; 0xc1; 0xaf; 0xbd; 0x03; 0x01; 0x13; 0x8a; 0x6b;
  0x3a; 0x91; 0x11; 0x41; 0x4f; 0x67; 0xdc; 0xea; 0x97; 0xf2; 0xcf; 0xce; 0xf0; 0xb4; 0xe6; 0x73;
  0x96; 0xac; 0x74; 0x22; 0xe7; 0xad; 0x35; 0x85; 0xe2; 0xf9; 0x37; 0xe8; 0x1c; 0x75; 0xdf; 0x6e;
  0x47; 0xf1; 0x1a; 0x71; 0x1d; 0x29; 0xc5; 0x89; 0x6f; 0xb7; 0x62; 0x0e; 0xaa; 0x18; 0xbe; 0x1b;
  0xfc; 0x56; 0x3e; 0x4b; 0xc6; 0xd2; 0x79; 0x20; 0x9a; 0xdb; 0xc0; 0xfe; 0x78; 0xcd; 0x5a; 0xf4;
  0x1f; 0xdd; 0xa8; 0x33; 0x88; 0x07; 0xc7; 0x31; 0xb1; 0x12; 0x10; 0x59; 0x27; 0x80; 0xec; 0x5f;
  0x60; 0x51; 0x7f; 0xa9; 0x19; 0xb5; 0x4a; 0x0d; 0x2d; 0xe5; 0x7a; 0x9f; 0x93; 0xc9; 0x9c; 0xef;
  0xa0; 0xe0; 0x3b; 0x4d; 0xae; 0x2a; 0xf5; 0xb0; 0xc8; 0xeb; 0xbb; 0x3c; 0x83; 0x53; 0x99; 0x61;
  0x17; 0x2b; 0x04; 0x7e; 0xba; 0x77; 0xd6; 0x26; 0xe1; 0x69; 0x14; 0x63; 0x55; 0x21; 0x0c; 0x7d].
(** src/mln_aes.c:57-69 *)
Definition rcon : list N := [ 0x0; 0x01000000; 0x02000000; 0x04000000; 0x08000000; 0x10000000; 0x20000000; 0x40000000; 0x80000000; 0x1b000000; 0x36000000].

Definition u32 (x : N) : N := N.land x 0xffffffff.
(** sbox[b] and rsbox[b] for a byte [b]; the tables have 256 entries. *)
Definition sub (b : N) : N := nth (N.to_nat b) sbox 0.
Definition rsub (b : N) : N := nth (N.to_nat b) rsbox 0.

(** mln_aes_rotbyte, src/mln_aes.c:71 *)
Definition rotbyte (v : N) : N := N.lor (N.land (N.shiftr v 24) 0xff) (u32 (N.shiftl (N.land v 0xffffff) 8)).
(** mln_aes_subbyte, src/mln_aes.c:73-76 *)
Definition subbyte (v : N) : N :=
  N.lor (N.lor (N.lor (N.land (sub (N.land v 0xff)) 0xff)
    (N.shiftl (N.land (sub (N.land (N.shiftr v 8) 0xff)) 0xff) 8))
    (N.shiftl (N.land (sub (N.land (N.shiftr v 16) 0xff)) 0xff) 16))
    (N.shiftl (N.land (sub (N.land (N.shiftr v 24) 0xff)) 0xff) 24).

(** Words of the key and rounds by size code, include/mln_aes.h:11-21 and src/mln_aes.c:83-97, 208-219. *)
Definition sizes (code : N) : option (nat * nat) :=
  match code with 0 => Some (4, 10)%nat | 1 => Some (6, 12)%nat | 2 => Some (8, 14)%nat | _ => None end.

(** src/mln_aes.c:99-103: four key bytes as a word; [None] outside the key. *)
Definition key_word (key : list N) (i : nat) : option N :=
  a <- nth_error key (4 * i) ;; b <- nth_error key (4 * i + 1) ;; c <- nth_error key (4 * i + 2) ;; d <- nth_error key (4 * i + 3) ;;
  Some (N.lor (N.lor (N.lor (N.shiftl (N.land a 0xff) 24) (N.shiftl (N.land b 0xff) 16)) (N.shiftl (N.land c 0xff) 8)) (N.land d 0xff)).
Fixpoint key_words (key : list N) (i n : nat) : option (list N) :=
  match n with O => Some [] | S n => w <- key_word key i ;; r <- key_words key (S i) n ;; Some (w :: r) end.
(** src/mln_aes.c:104-113: the words from [i] on; [w] holds the [i] words written so far. *)
Fixpoint expand (nk : nat) (code : N) (w : list N) (i n : nat) : list N :=
  match n with
  | O => w
  | S n =>
      let temp := nth (i - 1) w 0 in
      let temp := if (i mod nk =? 0)%nat then N.lxor (subbyte (rotbyte temp)) (nth (i / nk) rcon 0)
                  else if (code =? 2) && (i mod nk =? 4)%nat then subbyte temp else temp in
      expand nk code (w ++ [N.lxor (nth (i - nk) w 0) temp]) (S i) n
  end.
(** mln_aes_init, src/mln_aes.c:78-119: the size code and 60 words; [None] for an unknown size or a short key. *)
Definition aes_init (key : list N) (code : N) : option (N * list N) :=
  p <- sizes code ;; let '(nk, nr) := p in
  w <- key_words key 0 nk ;;
  let w := expand nk code w nk ((nr + 1) * 4 - nk) in
  Some (code, w ++ repeat 0 (60 - length w)).

(** The byte of a state word for column [i]: [(w >> ((3-i) << 3)) & 0xff]. *)
Definition pos (i : nat) : N := 8 * N.of_nat (3 - i).
Definition get (w : N) (i : nat) : N := N.land (N.shiftr w (pos i)) 0xff.
(** The pair [w ^= old << s; w |= b << s] with which every step replaces a byte. *)
Definition put (w : N) (i : nat) (b : N) : N := N.lor (N.lxor w (N.shiftl (get w i) (pos i))) (N.shiftl b (pos i)).
Definition row (st : list N) (j : nat) : N := nth j st 0.
Definition four : list nat := [0; 1; 2; 3]%nat.
(** The double loops over columns [i] and rows [j] that replace every byte. *)
Definition each (f : nat -> nat -> N -> N) (st : list N) : list N :=
  fold_left (fun st i => fold_left (fun st j => upd st j (put (row st j) i (f i j (get (row st j) i)))) four st) four st.

(** mln_aes_addroundkey, src/mln_aes.c:145-156 *)
Definition addroundkey (w : list N) (round : nat) (st : list N) : list N :=
  each (fun i j b => N.lxor b (N.land (N.shiftr (nth (round * 4 + i) w 0) (pos j)) 0xff)) st.
(** mln_aes_bytesub and mln_aes_invbytesub, src/mln_aes.c:186-197, 299-310 *)
Definition bytesub (st : list N) : list N := each (fun _ _ b => N.land (sub b) 0xff) st.
Definition invbytesub (st : list N) : list N := each (fun _ _ b => N.land (rsub b) 0xff) st.

(** __MLN_AES_XTIME and the multiplication macros, include/mln_aes.h:23-31 (in C [int] arithmetic, no overflow). *)
Definition xtime (x : N) : N := N.lxor (N.shiftl x 1) (N.land (N.shiftr x 7) 1 * 0x1b).
Definition m01 (x : N) : N := N.land x 0xff.
Definition m02 (x : N) : N := xtime x.
Definition m03 (x : N) : N := N.land (N.lxor (m02 x) x) 0xff.
Definition m09 (x : N) : N := N.land (N.lxor (m02 (m02 (m02 x))) x) 0xff.
Definition m0b (x : N) : N := N.land (N.lxor (N.lxor (m02 (m02 (m02 x))) (m02 x)) x) 0xff.
Definition m0d (x : N) : N := N.land (N.lxor (N.lxor (m02 (m02 (m02 x))) (m02 (m02 x))) x) 0xff.
Definition m0e (x : N) : N := N.land (N.lxor (N.lxor (m02 (m02 (m02 x))) (m02 (m02 x))) (m02 x)) 0xff.
(** One column of the mixing steps: the four bytes are read first, then the rows replaced in turn. *)
Definition mix_with (g : nat -> N -> N -> N -> N -> N) (st : list N) (i : nat) : list N :=
  let b0 := get (row st 0) i in let b1 := get (row st 1) i in let b2 := get (row st 2) i in let b3 := get (row st 3) i in
  fold_left (fun st j => upd st j (put (row st j) i (g j b0 b1 b2 b3))) four st.
Definition x4 (a b c d : N) : N := N.lxor (N.lxor (N.lxor a b) c) d.
(** mln_aes_mixcolume, src/mln_aes.c:158-184; [b] is a byte variable. *)
Definition mixcolumn (st : list N) : list N :=
  fold_left (mix_with (fun j b0 b1 b2 b3 => N.land (match j with
    | 0 => x4 (m02 b0) (m03 b1) (m01 b2) (m01 b3)
    | 1 => x4 (m01 b0) (m02 b1) (m03 b2) (m01 b3)
    | 2 => x4 (m01 b0) (m01 b1) (m02 b2) (m03 b3)
    | _ => x4 (m03 b0) (m01 b1) (m01 b2) (m02 b3) end%nat) 0xff)) four st.
(** mln_aes_invmixcolume, src/mln_aes.c:312-335 *)
Definition invmixcolumn (st : list N) : list N :=
  fold_left (mix_with (fun j b0 b1 b2 b3 => match j with
    | 0 => x4 (m0e b0) (m0b b1) (m0d b2) (m09 b3)
    | 1 => x4 (m09 b0) (m0e b1) (m0b b2) (m0d b3)
    | 2 => x4 (m0d b0) (m09 b1) (m0e b2) (m0b b3)
    | _ => x4 (m0b b0) (m0d b1) (m09 b2) (m0e b3) end%nat)) four st.

(** mln_aes_shiftrow and mln_aes_invshiftrow, src/mln_aes.c:199-203, 293-297 *)
Definition rotl (w n : N) : N := N.land (N.lor (u32 (N.shiftl w n)) (N.shiftr w (32 - n))) 0xffffffff.
Definition rotr (w n : N) : N := N.land (N.lor (N.shiftr w n) (u32 (N.shiftl w (32 - n)))) 0xffffffff.
Definition shiftrow (st : list N) : list N := [row st 0; rotl (row st 1) 8; rotl (row st 2) 16; rotl (row st 3) 24].
Definition invshiftrow (st : list N) : list N := [row st 0; rotr (row st 1) 8; rotr (row st 2) 16; rotr (row st 3) 24].

(** src/mln_aes.c:221-225, 239-243: text bytes to state rows and back. *)
Definition load (text : list N) : list N :=
  fold_left (fun st i => fold_left (fun st j => upd st j (N.lor (row st j) (N.shiftl (N.land (nth (4 * i + j) text 0) 0xff) (pos i)))) four st) four [0; 0; 0; 0].
Definition unload (st : list N) : list N := flat_map (fun i => map (fun j => get (row st j) i) four) four.

(** src/mln_aes.c:229-234: one round, and the rounds [round .. round+n-1]. *)
Definition enc_round (w : list N) (round : nat) (st : list N) : list N := addroundkey w round (mixcolumn (shiftrow (bytesub st))).
Fixpoint rounds_up (f : nat -> list N -> list N) (round n : nat) (st : list N) : list N :=
  match n with O => st | S n => rounds_up f (S round) n (f round st) end.
Definition enc_rounds (w : list N) : nat -> nat -> list N -> list N := rounds_up (enc_round w).
(** src/mln_aes.c:273-278: one round, and the rounds [n .. 1]. *)
Definition dec_round (w : list N) (round : nat) (st : list N) : list N := invmixcolumn (addroundkey w round (invbytesub (invshiftrow st))).
Fixpoint rounds_down (f : nat -> list N -> list N) (n : nat) (st : list N) : list N :=
  match n with O => st | S n' => rounds_down f n' (f n st) end.
Definition dec_rounds (w : list N) : nat -> list N -> list N := rounds_down (dec_round w).

(** mln_aes_encrypt, src/mln_aes.c:205-247: the buffer afterwards; [None] for an unknown size code or fewer than 16 bytes. *)
Definition aes_encrypt (a : N * list N) (text : list N) : option (list N) :=
  p <- sizes (fst a) ;; let '(_, nr) := p in let w := snd a in
  if (length text <? 16)%nat then None
  else Some (unload (addroundkey w nr (shiftrow (bytesub (enc_rounds w 1 (nr - 1) (addroundkey w 0 (load text)))))) ++ skipn 16 text).
(** mln_aes_decrypt, src/mln_aes.c:249-291 *)
Definition aes_decrypt (a : N * list N) (text : list N) : option (list N) :=
  p <- sizes (fst a) ;; let '(_, nr) := p in let w := snd a in
  if (length text <? 16)%nat then None
  else Some (unload (addroundkey w 0 (invbytesub (invshiftrow (dec_rounds w (nr - 1) (addroundkey w nr (load text)))))) ++ skipn 16 text).

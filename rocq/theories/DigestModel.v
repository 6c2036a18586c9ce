(** * Message digests (src/mln_md5.c, src/mln_sha.c)

    Words are numbers below 2^32.  [None]: memory outside a buffer is written,
    or a loop does not end.

    Simplifications: shifting a byte into the sign bit of an [int] gives the
    two's complement, as it does with the usual compilers; the input is given as
    its bytes, so that [len] is their number and [len + pos] does not wrap. *)

From Coq Require Import List Arith NArith Bool.
From Verif Require Import Base.
Import ListNotations.
Local Open Scope N_scope.

Definition two32 : N := 4294967296.
Definition two64 : N := 18446744073709551616.

Definition u32 (x : N) : N := x mod two32.
Definition add32 (x y : N) : N := u32 (x + y).
Definition shl32 (x n : N) : N := u32 (N.shiftl x n).
Definition not32 (x : N) : N := N.lnot x 32.

(** ** Feeding

    [mln_md5_calc], [mln_sha1_calc] and [mln_sha256_calc] are the same text, but
    for the function that calculates a block and the order of the bytes of the
    length. *)

Section Calc.

Variable H : Type.
Variable calc_block : H -> list N -> H.
Variable length_bytes : N -> list N.

(** include/mln_md5.h:23-31, include/mln_sha.h:13-22, include/mln_sha.h:35-47 *)
Record ctx : Type := mkC {
  c_h : H;
  c_length : N;
  c_pos : nat;
  c_buf : list N
}.

(** [memcpy] and [memset] into the buffer. *)
Definition memcpy (buf : list N) (pos : nat) (bs : list N) : option (list N) :=
  if (pos + length bs <=? length buf)%nat
  then Some (firstn pos buf ++ bs ++ skipn (pos + length bs) buf)
  else None.
Definition memset (buf : list N) (pos : nat) (v : N) (n : nat) : option (list N) :=
  memcpy buf pos (repeat v n).

(** The loop of src/mln_md5.c:71-121, src/mln_sha.c:90-140 and src/mln_sha.c:385-435. *)
Fixpoint calc_loop (fuel : nat) (c : ctx) (input : list N) : option (ctx * list N) :=
  if (64 <? length input + c_pos c)%nat then
    match fuel with
    | O => None
    | S fuel' =>
        let size := (64 - c_pos c)%nat in
        buf <- memcpy (c_buf c) (c_pos c) (firstn size input) ;;
        calc_loop fuel' (mkC (calc_block (c_h c) buf) (c_length c) 0 buf) (skipn size input)
    end
  else Some (c, input).

(** The last part of the same functions, for [is_last]. *)
Definition calc_last (c : ctx) : option ctx :=
  c <- (if (c_pos c <? 56)%nat then
          buf <- memset (c_buf c) (c_pos c) 0 (56 - c_pos c) ;;
          buf <- store buf (c_pos c) 128 ;;
          Some (mkC (c_h c) (c_length c) (c_pos c) buf)
        else if (c_pos c <? 64)%nat then
          buf <- memset (c_buf c) (c_pos c) 0 (64 - c_pos c) ;;
          buf <- store buf (c_pos c) 128 ;;
          let h := calc_block (c_h c) buf in
          buf <- memset buf 0 0 56 ;;
          Some (mkC h (c_length c) 0 buf)
        else
          let h := calc_block (c_h c) (c_buf c) in
          buf <- memset (c_buf c) 0 0 56 ;;
          buf <- store buf 0 128 ;;
          Some (mkC h (c_length c) 0 buf)) ;;
  let len := N.shiftl (c_length c) 3 mod two64 in
  buf <- memcpy (c_buf c) 56 (length_bytes len) ;;
  Some (mkC (calc_block (c_h c) buf) len 0 buf).

(** src/mln_md5.c:71-121: [mln_md5_calc]; src/mln_sha.c:90-140: [mln_sha1_calc];
    src/mln_sha.c:385-435: [mln_sha256_calc] *)
Definition calc (c : ctx) (input : list N) (is_last : bool) : option ctx :=
  let c := mkC (c_h c) ((c_length c + N.of_nat (length input)) mod two64) (c_pos c) (c_buf c) in
  x <- calc_loop (length input + c_pos c) c input ;;
  let (c, input) := (x : ctx * list N) in
  c <- (if (0 <? length input)%nat then
          buf <- memcpy (c_buf c) (c_pos c) input ;;
          Some (mkC (c_h c) (c_length c) (c_pos c + length input) buf)
        else Some c) ;;
  if is_last then calc_last c else Some c.

(** A caller that gives the pieces one after the other, and then the last one. *)
Fixpoint calc_all (c : ctx) (pieces : list (list N)) (last : list N) : option ctx :=
  match pieces with
  | [] => calc c last true
  | p :: pieces' => c <- calc c p false ;; calc_all c pieces' last
  end.

End Calc.

(** The eight bytes of the length, from the lowest or the highest: lines
    109-117 of src/mln_md5.c and lines 128-136, 423-431 of src/mln_sha.c. *)
Definition length_le (n : N) : list N :=
  map (fun i => N.land (N.shiftr n i) 255) [0; 8; 16; 24; 32; 40; 48; 56].
Definition length_be (n : N) : list N :=
  map (fun i => N.land (N.shiftr n i) 255) [56; 48; 40; 32; 24; 16; 8; 0].

(** ** MD5 *)

(** include/mln_md5.h:12-15 *)
Definition md5_F (x y z : N) : N := N.lor (N.land x y) (N.land (not32 x) z).
Definition md5_G (x y z : N) : N := N.lor (N.land x z) (N.land y (not32 z)).
Definition md5_H (x y z : N) : N := N.lxor (N.lxor x y) z.
Definition md5_I (x y z : N) : N := N.lxor y (N.lor x (not32 z)).

(** include/mln_md5.h:16: [__M_MD5_ROTATE_LEFT]; src/mln_sha.c:14: the same for SHA-1. *)
Definition rotate_left (x n : N) : N := N.lor (shl32 x n) (N.shiftr x (32 - n)).

(** src/mln_md5.c:13-18 *)
Definition md5_s : list (list N) :=
  [[7; 12; 17; 22]; [5; 9; 14; 20]; [4; 11; 16; 23]; [6; 10; 15; 21]].

(** src/mln_md5.c:19-36 *)
Definition md5_ti : list (list N) :=
  [[3614090360; 3905402710; 606105819; 3250441966;
    4118548399; 1200080426; 2821735955; 4249261313;
    1770035416; 2336552879; 4294925233; 2304563134;
    1804603682; 4254626195; 2792965006; 1236535329];
   [4129170786; 3225465664; 643717713; 3921069994;
    3593408605; 38016083; 3634488961; 3889429448;
    568446438; 3275163606; 4107603335; 1163531501;
    2850285829; 4243563512; 1735328473; 2368359562];
   [4294588738; 2272392833; 1839030562; 4259657740;
    2763975236; 1272893353; 4139469664; 3200236656;
    681279174; 3936430074; 3572445317; 76029189;
    3654602809; 3873151461; 530742520; 3299628645];
   [4096336452; 1126891415; 2878612391; 4237533241;
    1700485571; 2399980690; 4293915773; 2240044497;
    1873313359; 4264355552; 2734768916; 1309151649;
    4149444226; 3174756917; 718787259; 3951481745]].

Inductive md5_macro : Type := FF | GG | HH | II.
Inductive md5_reg : Type := Ra | Rb | Rc | Rd.
Definition md5_regs : Type := (N * N * N * N)%type.

(** The arguments of a macro call; the first one tells the others. *)
Definition md5_args (r : md5_reg) (v : md5_regs) : md5_regs :=
  let '(a, b, c, d) := v in
  match r with Ra => (a, b, c, d) | Rd => (d, a, b, c) | Rc => (c, d, a, b) | Rb => (b, c, d, a) end.
Definition md5_set (r : md5_reg) (x : N) (v : md5_regs) : md5_regs :=
  let '(a, b, c, d) := v in
  match r with Ra => (x, b, c, d) | Rd => (a, b, c, x) | Rc => (a, b, x, d) | Rb => (a, x, c, d) end.

(** include/mln_md5.h:17-20: [__M_MD5_FF] and the others. *)
Definition md5_step (group : list N) (v : md5_regs) (l : md5_macro * md5_reg * nat * (nat * nat) * (nat * nat)) : md5_regs :=
  let '(m, r, j, (s1, s2), (t1, t2)) := l in
  let '(a, b, c, d) := md5_args r v in
  let f := match m with FF => md5_F b c d | GG => md5_G b c d | HH => md5_H b c d | II => md5_I b c d end in
  md5_set r
    (add32 b (rotate_left (add32 (add32 (add32 a f) (nth j group 0)) (nth t2 (nth t1 md5_ti []) 0))
                          (nth s2 (nth s1 md5_s []) 0))) v.

(** src/mln_md5.c:134-200: the macro calls: the macro, its first argument, the
    index of [group], those of [s] and of [ti]. *)
Definition md5_lines : list (md5_macro * md5_reg * nat * (nat * nat) * (nat * nat)) := (
  [(FF, Ra, 0, (0, 0), (0, 0)); (FF, Rd, 1, (0, 1), (0, 1));
   (FF, Rc, 2, (0, 2), (0, 2)); (FF, Rb, 3, (0, 3), (0, 3));
   (FF, Ra, 4, (0, 0), (0, 4)); (FF, Rd, 5, (0, 1), (0, 5));
   (FF, Rc, 6, (0, 2), (0, 6)); (FF, Rb, 7, (0, 3), (0, 7));
   (FF, Ra, 8, (0, 0), (0, 8)); (FF, Rd, 9, (0, 1), (0, 9));
   (FF, Rc, 10, (0, 2), (0, 10)); (FF, Rb, 11, (0, 3), (0, 11));
   (FF, Ra, 12, (0, 0), (0, 12)); (FF, Rd, 13, (0, 1), (0, 13));
   (FF, Rc, 14, (0, 2), (0, 14)); (FF, Rb, 15, (0, 3), (0, 15));
   (GG, Ra, 1, (1, 0), (1, 0)); (GG, Rd, 6, (1, 1), (1, 1));
   (GG, Rc, 11, (1, 2), (1, 2)); (GG, Rb, 0, (1, 3), (1, 3));
   (GG, Ra, 5, (1, 0), (1, 4)); (GG, Rd, 10, (1, 1), (1, 5));
   (GG, Rc, 15, (1, 2), (1, 6)); (GG, Rb, 4, (1, 3), (1, 7));
   (GG, Ra, 9, (1, 0), (1, 8)); (GG, Rd, 14, (1, 1), (1, 9));
   (GG, Rc, 3, (1, 2), (1, 10)); (GG, Rb, 8, (1, 3), (1, 11));
   (GG, Ra, 13, (1, 0), (1, 12)); (GG, Rd, 2, (1, 1), (1, 13));
   (GG, Rc, 7, (1, 2), (1, 14)); (GG, Rb, 12, (1, 3), (1, 15));
   (HH, Ra, 5, (2, 0), (2, 0)); (HH, Rd, 8, (2, 1), (2, 1));
   (HH, Rc, 11, (2, 2), (2, 2)); (HH, Rb, 14, (2, 3), (2, 3));
   (HH, Ra, 1, (2, 0), (2, 4)); (HH, Rd, 4, (2, 1), (2, 5));
   (HH, Rc, 7, (2, 2), (2, 6)); (HH, Rb, 10, (2, 3), (2, 7));
   (HH, Ra, 13, (2, 0), (2, 8)); (HH, Rd, 0, (2, 1), (2, 9));
   (HH, Rc, 3, (2, 2), (2, 10)); (HH, Rb, 6, (2, 3), (2, 11));
   (HH, Ra, 9, (2, 0), (2, 12)); (HH, Rd, 12, (2, 1), (2, 13));
   (HH, Rc, 15, (2, 2), (2, 14)); (HH, Rb, 2, (2, 3), (2, 15));
   (II, Ra, 0, (3, 0), (3, 0)); (II, Rd, 7, (3, 1), (3, 1));
   (II, Rc, 14, (3, 2), (3, 2)); (II, Rb, 5, (3, 3), (3, 3));
   (II, Ra, 12, (3, 0), (3, 4)); (II, Rd, 3, (3, 1), (3, 5));
   (II, Rc, 10, (3, 2), (3, 6)); (II, Rb, 1, (3, 3), (3, 7));
   (II, Ra, 8, (3, 0), (3, 8)); (II, Rd, 15, (3, 1), (3, 9));
   (II, Rc, 6, (3, 2), (3, 10)); (II, Rb, 13, (3, 3), (3, 11));
   (II, Ra, 4, (3, 0), (3, 12)); (II, Rd, 11, (3, 1), (3, 13));
   (II, Rc, 2, (3, 2), (3, 14)); (II, Rb, 9, (3, 3), (3, 15))])%nat.

(** src/mln_md5.c:126-132: the loop that fills [group]. *)
Definition md5_group (buf : list N) : list N :=
  map (fun j => let b i := N.land (nth (4 * j + i)%nat buf 0) 255 in
         N.lor (N.lor (N.lor (b 0%nat) (shl32 (b 1%nat) 8)) (shl32 (b 2%nat) 16)) (shl32 (b 3%nat) 24)) (seq 0 16).

(** src/mln_md5.c:123-210: [mln_md5_calc_block] *)
Definition md5_calc_block (h : md5_regs) (buf : list N) : md5_regs :=
  let '(A, B, C, D) := h in
  let '(a, b, c, d) := fold_left (md5_step (md5_group buf)) md5_lines h in
  (N.land (add32 A a) 4294967295, N.land (add32 B b) 4294967295,
   N.land (add32 C c) 4294967295, N.land (add32 D d) 4294967295).

(** src/mln_md5.c:38-45: [mln_md5_init]; the buffer has any contents. *)
Definition md5_init (buf : list N) : ctx md5_regs :=
  mkC _ (1732584193, 4023233417, 2562383102, 271733878) 0 0 buf.

Definition md5_calc : ctx md5_regs -> list N -> bool -> option (ctx md5_regs) :=
  calc md5_regs md5_calc_block length_le.

(** ** SHA-1 *)

(** src/mln_sha.c:15-18 *)
Definition sha1_F1 (b c d : N) : N := N.lor (N.land b c) (N.land (not32 b) d).
Definition sha1_F2 (b c d : N) : N := N.lxor (N.lxor b c) d.
Definition sha1_F3 (b c d : N) : N := N.lor (N.land b c) (N.land d (N.lor b c)).
Definition sha1_F4 (b c d : N) : N := N.lxor (N.lxor b c) d.

(** src/mln_sha.c:42-47 *)
Definition sha1_k : list N := [1518500249; 1859775393; 2400959708; 3395469782].

Inductive sha1_macro : Type := FF1 | FF2 | FF3 | FF4.
Inductive sha1_reg : Type := Sa | Sb | Sc | Sd | Se.
Inductive sha1_word : Type := G (i : nat) | W (t : nat).
Definition sha1_regs : Type := (N * N * N * N * N)%type.

Definition sha1_args (r : sha1_reg) (v : sha1_regs) : sha1_regs :=
  let '(a, b, c, d, e) := v in
  match r with
  | Sa => (a, b, c, d, e) | Se => (e, a, b, c, d) | Sd => (d, e, a, b, c)
  | Sc => (c, d, e, a, b) | Sb => (b, c, d, e, a)
  end.
(** The second and the last argument of the macro assigned. *)
Definition sha1_set (r : sha1_reg) (x y : N) (v : sha1_regs) : sha1_regs :=
  let '(a, b, c, d, e) := v in
  match r with
  | Sa => (a, x, c, d, y) | Se => (x, b, c, y, e) | Sd => (a, b, y, d, x)
  | Sc => (a, y, c, x, e) | Sb => (y, b, x, d, e)
  end.

(** src/mln_sha.c:39-40: [__M_SHA1_W] *)
Definition sha1_W (t : nat) (g : list N) : N :=
  let at_ i := nth (N.to_nat (N.land (N.of_nat t - i) 15)) g 0 in
  rotate_left (N.lxor (N.lxor (N.lxor (at_ 3) (at_ 8)) (at_ 14)) (at_ 0)) 1.

(** src/mln_sha.c:19-38: [__M_SHA1_FF1] and the others; [__M_SHA1_W] stores the
    word before it is used. *)
Definition sha1_step (st : list N * sha1_regs) (l : sha1_macro * sha1_reg * sha1_word * nat) : list N * sha1_regs :=
  let (g, v) := st in
  let '(m, r, w, ki) := l in
  let (g, wt) := match w with
                 | G i => (g, nth i g 0)
                 | W t => (upd g (N.to_nat (N.land (N.of_nat t) 15)) (sha1_W t g), sha1_W t g)
                 end in
  let '(a, b, c, d, e) := sha1_args r v in
  let f := match m with FF1 => sha1_F1 b c d | FF2 => sha1_F2 b c d | FF3 => sha1_F3 b c d | FF4 => sha1_F4 b c d end in
  (g, sha1_set r (rotate_left b 30)
        (add32 e (add32 (add32 (add32 (rotate_left a 5) f) (nth ki sha1_k 0)) wt)) v).

(** src/mln_sha.c:153-235: the macro calls: the macro, its first argument, the
    word and the index of [k]. *)
Definition sha1_lines : list (sha1_macro * sha1_reg * sha1_word * nat) := (
  [(FF1, Sa, G 0, 0); (FF1, Se, G 1, 0); (FF1, Sd, G 2, 0); (FF1, Sc, G 3, 0);
   (FF1, Sb, G 4, 0); (FF1, Sa, G 5, 0); (FF1, Se, G 6, 0); (FF1, Sd, G 7, 0);
   (FF1, Sc, G 8, 0); (FF1, Sb, G 9, 0); (FF1, Sa, G 10, 0); (FF1, Se, G 11, 0);
   (FF1, Sd, G 12, 0); (FF1, Sc, G 13, 0); (FF1, Sb, G 14, 0); (FF1, Sa, G 15, 0);
   (FF1, Se, W 16, 0); (FF1, Sd, W 17, 0); (FF1, Sc, W 18, 0); (FF1, Sb, W 19, 0);
   (FF2, Sa, W 20, 1); (FF2, Se, W 21, 1); (FF2, Sd, W 22, 1); (FF2, Sc, W 23, 1);
   (FF2, Sb, W 24, 1); (FF2, Sa, W 25, 1); (FF2, Se, W 26, 1); (FF2, Sd, W 27, 1);
   (FF2, Sc, W 28, 1); (FF2, Sb, W 29, 1); (FF2, Sa, W 30, 1); (FF2, Se, W 31, 1);
   (FF2, Sd, W 32, 1); (FF2, Sc, W 33, 1); (FF2, Sb, W 34, 1); (FF2, Sa, W 35, 1);
   (FF2, Se, W 36, 1); (FF2, Sd, W 37, 1); (FF2, Sc, W 38, 1); (FF2, Sb, W 39, 1);
   (FF3, Sa, W 40, 2); (FF3, Se, W 41, 2); (FF3, Sd, W 42, 2); (FF3, Sc, W 43, 2);
   (FF3, Sb, W 44, 2); (FF3, Sa, W 45, 2); (FF3, Se, W 46, 2); (FF3, Sd, W 47, 2);
   (FF3, Sc, W 48, 2); (FF3, Sb, W 49, 2); (FF3, Sa, W 50, 2); (FF3, Se, W 51, 2);
   (FF3, Sd, W 52, 2); (FF3, Sc, W 53, 2); (FF3, Sb, W 54, 2); (FF3, Sa, W 55, 2);
   (FF3, Se, W 56, 2); (FF3, Sd, W 57, 2); (FF3, Sc, W 58, 2); (FF3, Sb, W 59, 2);
   (FF4, Sa, W 60, 3); (FF4, Se, W 61, 3); (FF4, Sd, W 62, 3); (FF4, Sc, W 63, 3);
   (FF4, Sb, W 64, 3); (FF4, Sa, W 65, 3); (FF4, Se, W 66, 3); (FF4, Sd, W 67, 3);
   (FF4, Sc, W 68, 3); (FF4, Sb, W 69, 3); (FF4, Sa, W 70, 3); (FF4, Se, W 71, 3);
   (FF4, Sd, W 72, 3); (FF4, Sc, W 73, 3); (FF4, Sb, W 74, 3); (FF4, Sa, W 75, 3);
   (FF4, Se, W 76, 3); (FF4, Sd, W 77, 3); (FF4, Sc, W 78, 3); (FF4, Sb, W 79, 3)])%nat.

(** src/mln_sha.c:145-151: the loop that fills [group]. *)
Definition sha1_group (buf : list N) : list N :=
  map (fun j => let b i := N.land (nth (4 * j + i)%nat buf 0) 255 in
         N.lor (N.lor (N.lor (shl32 (b 0%nat) 24) (shl32 (b 1%nat) 16)) (shl32 (b 2%nat) 8)) (b 3%nat)) (seq 0 16).

(** src/mln_sha.c:142-242: [mln_sha1_calc_block] *)
Definition sha1_calc_block (h : sha1_regs) (buf : list N) : sha1_regs :=
  let '(H0, H1, H2, H3, H4) := h in
  let '(_, (a, b, c, d, e)) := fold_left sha1_step sha1_lines (sha1_group buf, h) in
  (add32 H0 a, add32 H1 b, add32 H2 c, add32 H3 d, add32 H4 e).

(** src/mln_sha.c:56-64: [mln_sha1_init] *)
Definition sha1_init (buf : list N) : ctx sha1_regs :=
  mkC _ (1732584193, 4023233417, 2562383102, 271733878, 3285377520) 0 0 buf.

Definition sha1_calc : ctx sha1_regs -> list N -> bool -> option (ctx sha1_regs) :=
  calc sha1_regs sha1_calc_block length_be.

(** ** SHA-256 *)

(** src/mln_sha.c:329-346 *)
Definition sha256_round_constant : list N :=
  [1116352408; 1899447441; 3049323471; 3921009573; 961987163; 1508970993;
   2453635748; 2870763221; 3624381080; 310598401; 607225278; 1426881987;
   1925078388; 2162078206; 2614888103; 3248222580; 3835390401; 4022224774;
   264347078; 604807628; 770255983; 1249150122; 1555081692; 1996064986;
   2554220882; 2821834349; 2952996808; 3210313671; 3336571891; 3584528711;
   113926993; 338241895; 666307205; 773529912; 1294757372; 1396182291;
   1695183700; 1986661051; 2177026350; 2456956037; 2730485921; 2820302411;
   3259730800; 3345764771; 3516065817; 3600352804; 4094571909; 275423344;
   430227734; 506948616; 659060556; 883997877; 958139571; 1322822218;
   1537002063; 1747873779; 1955562222; 2024104815; 2227730452; 2361852424;
   2428436474; 2756734187; 3204031479; 3329325298].

(** src/mln_sha.c:437-444: the macros. *)
Definition sha256_S (x n : N) : N := N.lor (N.shiftr x n) (shl32 x (32 - n)).
Definition sha256_R (x n : N) : N := N.shiftr x n.
Definition sha256_Ch (x y z : N) : N := N.lxor (N.land x y) (N.land (not32 x) z).
Definition sha256_Maj (x y z : N) : N := N.lxor (N.lxor (N.land x y) (N.land x z)) (N.land y z).
Definition sha256_Sigma0256 (x : N) : N := N.lxor (N.lxor (sha256_S x 2) (sha256_S x 13)) (sha256_S x 22).
Definition sha256_Sigma1256 (x : N) : N := N.lxor (N.lxor (sha256_S x 6) (sha256_S x 11)) (sha256_S x 25).
Definition sha256_Gamma0256 (x : N) : N := N.lxor (N.lxor (sha256_S x 7) (sha256_S x 18)) (sha256_R x 3).
Definition sha256_Gamma1256 (x : N) : N := N.lxor (N.lxor (sha256_S x 17) (sha256_S x 19)) (sha256_R x 10).

(** src/mln_sha.c:446-450: [mln_sha256_safe_add] *)
Definition safe_add (x y : N) : N :=
  let lsw := add32 (N.land x 65535) (N.land y 65535) in
  let msw := add32 (add32 (N.shiftr x 16) (N.shiftr y 16)) (N.shiftr lsw 16) in
  N.lor (shl32 msw 16) (N.land lsw 65535).

Record sha256_regs : Type := mkR {
  h0 : N; h1 : N; h2 : N; h3 : N; h4 : N; h5 : N; h6 : N; h7 : N
}.

(** src/mln_sha.c:457-459: the loop that fills [group]. *)
Definition sha256_group (buf : list N) : list N :=
  fold_left (fun g j => upd g (j / 4)
               (N.lor (nth (j / 4) g 0) (shl32 (nth j buf 0) (8 * (3 - N.of_nat j mod 4)))))
            (seq 0 64) (repeat 0 64).

(** src/mln_sha.c:470-495: one turn of the second loop. *)
Definition sha256_step (st : list N * sha256_regs) (j : nat) : list N * sha256_regs :=
  let (g, v) := st in
  let g := if (16 <=? j)%nat then
             upd g j (safe_add (safe_add (safe_add (sha256_Gamma1256 (nth (j - 2) g 0)) (nth (j - 7) g 0))
                                         (sha256_Gamma0256 (nth (j - 15) g 0)))
                               (nth (j - 16) g 0))
           else g in
  let t1 := safe_add (safe_add (safe_add (safe_add (h7 v) (sha256_Sigma1256 (h4 v)))
                                         (sha256_Ch (h4 v) (h5 v) (h6 v)))
                               (nth j sha256_round_constant 0))
                     (nth j g 0) in
  let t2 := safe_add (sha256_Sigma0256 (h0 v)) (sha256_Maj (h0 v) (h1 v) (h2 v)) in
  (g, mkR (safe_add t1 t2) (h0 v) (h1 v) (h2 v) (safe_add (h3 v) t1) (h4 v) (h5 v) (h6 v)).

(** src/mln_sha.c:452-505: [mln_sha256_calc_block] *)
Definition sha256_calc_block (h : sha256_regs) (buf : list N) : sha256_regs :=
  let (_, v) := fold_left sha256_step (seq 0 64) (sha256_group buf, h) in
  mkR (safe_add (h0 v) (h0 h)) (safe_add (h1 v) (h1 h)) (safe_add (h2 v) (h2 h)) (safe_add (h3 v) (h3 h))
      (safe_add (h4 v) (h4 h)) (safe_add (h5 v) (h5 h)) (safe_add (h6 v) (h6 h)) (safe_add (h7 v) (h7 h)).

(** src/mln_sha.c:348-359: [mln_sha256_init] *)
Definition sha256_init (buf : list N) : ctx sha256_regs :=
  mkC _ (mkR 1779033703 3144134277 1013904242 2773480762 1359893119 2600822924 528734635 1541459225) 0 0 buf.

Definition sha256_calc : ctx sha256_regs -> list N -> bool -> option (ctx sha256_regs) :=
  calc sha256_regs sha256_calc_block length_be.

(** ** The result *)

(** Bytes written one after the other from index [i] on; a byte marked [true] is
    followed by the test [if (i >= len) return]. *)
Fixpoint write_bytes (bs : list (N * bool)) (i len : nat) (buf : list N) : option (list N) :=
  match bs with
  | [] => Some buf
  | (b, test) :: bs' =>
      buf <- store buf i b ;;
      if test && (len <=? S i)%nat then Some buf else write_bytes bs' (S i) len buf
  end.

Definition byte_at (x k : N) : N := N.land (N.shiftr x k) 255.
Definition word_le (x : N) : list N := map (byte_at x) [0; 8; 16; 24].
Definition word_be (x : N) : list N := map (byte_at x) [24; 16; 8; 0].
Definition tested (l : list N) : list (N * bool) := map (fun b => (b, true)) l.
(** The test is missing after the last byte of the word. *)
Definition untested (l : list N) : list (N * bool) :=
  map (fun b => (b, true)) (firstn 3 l) ++ map (fun b => (b, false)) (skipn 3 l).

(** src/mln_md5.c:212-252: [mln_md5_tobytes] *)
Definition md5_tobytes (c : ctx md5_regs) (buf : list N) (len : nat) : option (list N) :=
  if (len =? 0)%nat then Some buf
  else
    let '(A, B, C, D) := c_h _ c in
    write_bytes (tested (word_le A ++ word_le B ++ word_le C) ++ untested (word_le D)) 0 len buf.

(** src/mln_sha.c:244-294: [mln_sha1_tobytes] *)
Definition sha1_tobytes (c : ctx sha1_regs) (buf : list N) (len : nat) : option (list N) :=
  if (len =? 0)%nat then Some buf
  else
    let '(H0, H1, H2, H3, H4) := c_h _ c in
    write_bytes (tested (word_be H0 ++ word_be H1 ++ word_be H2 ++ word_be H3) ++ untested (word_be H4)) 0 len buf.

(** src/mln_sha.c:507-579: [mln_sha256_tobytes] *)
Definition sha256_tobytes (c : ctx sha256_regs) (buf : list N) (len : nat) : option (list N) :=
  if (len =? 0)%nat then Some buf
  else
    let v := c_h _ c in
    write_bytes (tested (word_be (h0 v) ++ word_be (h1 v) ++ word_be (h2 v) ++ word_be (h3 v)) ++
                 untested (word_be (h4 v)) ++ untested (word_be (h5 v)) ++
                 untested (word_be (h6 v)) ++ untested (word_be (h7 v))) 0 len buf.

(** src/mln_md5.c:254-256: [mln_md5_hex_tostring]; src/mln_sha.c:52-54: [mln_sha_hex_tostring] *)
Definition hex_tostring (c : N) : N := if c <? 10 then 48 + c else 97 + (c - 10).

(** The loop of the next functions, and the zero they end with. *)
Fixpoint write_hex (bs : list N) (i : nat) (buf : list N) : option (list N) :=
  match bs with
  | [] => store buf i 0
  | b :: bs' =>
      buf <- store buf i (hex_tostring (N.land (N.shiftr b 4) 15)) ;;
      buf <- store buf (S i) (hex_tostring (N.land b 15)) ;;
      write_hex bs' (S (S i)) buf
  end.

Definition tostring (bytes : option (list N)) (size : nat) (buf : list N) (len : nat) : option (list N) :=
  if (len =? 0)%nat then Some buf
  else
    bs <- bytes ;;
    write_hex (firstn (if (2 * size <? len)%nat then size else (len - 1) / 2)%nat bs) 0 buf.

(** src/mln_md5.c:258-273: [mln_md5_tostring] *)
Definition md5_tostring (c : ctx md5_regs) (buf : list N) (len : nat) : option (list N) :=
  tostring (md5_tobytes c (repeat 0 16) 16) 16 buf len.

(** src/mln_sha.c:296-311: [mln_sha1_tostring] *)
Definition sha1_tostring (c : ctx sha1_regs) (buf : list N) (len : nat) : option (list N) :=
  tostring (sha1_tobytes c (repeat 0 20) 20) 20 buf len.

(** src/mln_sha.c:581-596: [mln_sha256_tostring] *)
Definition sha256_tostring (c : ctx sha256_regs) (buf : list N) (len : nat) : option (list N) :=
  tostring (sha256_tobytes c (repeat 0 32) 32) 32 buf len.

(** * Forward error correction of RTP packets (src/mln_fec.c, include/mln_fec.h)

    A packet is the list of its bytes; the array of packets and the array of
    their lengths become one list.  The macros of include/mln_utils.h:144-159
    that read and write numbers, most significant byte first, are presented as
    [get_be] and [put_be]; [EndianProps] proves that the macros do this.

    Simplifications: an allocation never fails; the 16-bit counter of FEC packets
    in the decoder does not wrap around. *)

From Coq Require Import List Arith NArith ZArith Bool.
From Verif Require Import Base EndianSpec.
Import ListNotations.
Local Open Scope N_scope.

(** include/mln_utils.h:144-150 *)
Fixpoint put_be (k : nat) (n : N) : list N :=
  match k with
  | O => []
  | S k' => (n / 256 ^ N.of_nat k') mod 256 :: put_be k' n
  end.

(** include/mln_utils.h:152-159 *)
Definition get_be (l : list N) : N := be_value l.

(** The bytes of [p] from [off] on, [k] of them. *)
Definition slice (off k : nat) (p : list N) : list N := firstn k (skipn off p).

(** include/mln_fec.h:18-21 *)
Definition RTP_FIXEDLEN : nat := 12.
Definition FECHEADER_LEN : nat := 10.
Definition G_MAXLEN : nat := 1442.
Definition R_MAXLEN : nat := 1472.

Definition byte_at (i : nat) (p : list N) : N := nth i p 0.

(** src/mln_fec.c:157-158: the sequence number of a packet. *)
Definition seq_of (p : list N) : N := get_be (slice 2 2 p).

(** src/mln_fec.c:41-43, 52-54: the bytes of the shorter string folded into the
    longer one. *)
Fixpoint xor_into (long short : list N) : list N :=
  match long, short with
  | x :: l, y :: s => N.lxor x y :: xor_into l s
  | l, [] => l
  | [], _ => []
  end.

(** src/mln_fec.c:28-57: [mln_fec_xor] *)
Definition fec_xor (d1 d2 : list N) : list N :=
  if Nat.ltb (length d2) (length d1) then xor_into d1 d2 else xor_into d2 d1.

(** src/mln_fec.c:117-120, 379-382: the part of a packet that goes into the FEC
    header: its first eight bytes and the length behind the fixed header. *)
Definition header_bits (p : list N) : list N :=
  firstn 8 p ++ put_be 2 (N.of_nat (length p - RTP_FIXEDLEN)).

(** src/mln_fec.c:97-144: [mln_fec_generate_fecpacket_fecheader] *)
Definition fec_header (g : list (list N)) : list N :=
  let ret := fold_left (fun t p => fec_xor (header_bits p) t) g (repeat 0 10) in
  let b0 := N.land (byte_at 0 ret) 0x3f in
  (if Nat.ltb 16 (length g) then N.lor b0 0x40 else b0)
  :: byte_at 1 ret
  :: slice 2 2 (nth 0 g [])
  ++ slice 4 6 ret.

(** [(mln_u64_t)1 << s]; [None] when the shift is undefined. *)
Definition bit (s : Z) : option N :=
  if (0 <=? s)%Z && (s <? 64)%Z then Some (2 ^ Z.to_N s) else None.

(** src/mln_fec.c:187, 195: how far to shift for a packet; the 16-bit numbers
    are promoted to [int]. *)
Definition dist (base s : N) : Z := (Z.of_N s - Z.of_N base)%Z.

(** src/mln_fec.c:184-188, 192-196: the mask of the packets protected. *)
Fixpoint make_mask (width : Z) (base : N) (g : list (list N)) (mask : N) : option N :=
  match g with
  | [] => Some mask
  | p :: g' =>
      b <- bit (width - dist base (seq_of p)) ;;
      make_mask width base g' (N.lor mask b)
  end.

(** src/mln_fec.c:162-178: all packets folded together, from one zero byte. *)
Definition xor_all (g : list (list N)) : list N :=
  fold_left (fun t p => fec_xor p t) g [0].

(** src/mln_fec.c:146-207: [mln_fec_generate_fecpacket_fecbody] *)
Definition fec_body (g : list (list N)) : option (list N) :=
  let base := seq_of (nth 0 g []) in
  let last := seq_of (nth (length g - 1) g []) in
  let ret := xor_all g in
  let prot := put_be 2 (N.of_nat (length ret)) in
  let body := skipn RTP_FIXEDLEN ret in
  if Nat.ltb 16 (length g) || (16 <? dist base last)%Z then
    m <- make_mask 47 base g 0 ;; Some (prot ++ put_be 6 m ++ body)
  else
    m <- make_mask 15 base g 0 ;; Some (prot ++ put_be 2 m ++ body).

(** src/mln_fec.c:209-253: [mln_fec_generate_fecpacket]; [fseq] and [pt] are the
    fields of [mln_fec_t].  The buffer of 1472 bytes is large enough, see
    [fec_packet_fits] in [FecProofs]. *)
Definition fec_packet (fseq pt : N) (g : list (list N)) : option (list N) :=
  b <- fec_body g ;;
  let h := fec_header g in
  let len := (length h + length b + RTP_FIXEDLEN)%nat in
  let md := Nat.modulo len 4 in
  let first := if Nat.eqb md 0 then 0x80 else N.lor 0x80 0x20 in
  let pad := if Nat.eqb md 0 then [] else repeat 0 (md - 1) ++ [N.of_nat md] in
  Some (first :: pt :: put_be 2 fseq ++ slice 4 8 (nth (length g - 1) g []) ++ h ++ b ++ pad).

(** src/mln_fec.c:291-297: the loop over the groups.  A last group that is not
    complete is read past the end of the arrays: [None].  [fuel] bounds the
    number of groups. *)
Fixpoint enc_groups (fuel : nat) (fseq pt : N) (ps : list (list N)) (m : nat)
  : option (list (list N) * N) :=
  match ps with
  | [] => Some ([], fseq)
  | _ =>
      match fuel with
      | O => None
      | S fuel' =>
          if Nat.ltb (length ps) m then None
          else
            f <- fec_packet fseq pt (firstn m ps) ;;
            r <- enc_groups fuel' ((fseq + 1) mod 65536) pt (skipn m ps) m ;;
            Some (f :: fst r, snd r)
      end
  end.

(** src/mln_fec.c:255-304: [mln_fec_encode].  Outer [None]: undefined; inner
    [None]: NULL.  The result is the FEC packets and the next FEC sequence
    number. *)
Definition fec_encode (fseq pt : N) (ps : list (list N)) (m : nat)
  : option (option (list (list N) * N)) :=
  if Nat.eqb (length ps) 0 || Nat.ltb 48 m || Nat.eqb m 0 then Some None
  else if existsb (fun p => Nat.ltb (length p) RTP_FIXEDLEN || Nat.ltb G_MAXLEN (length p)) ps
  then Some None
  else r <- enc_groups (length ps) fseq pt ps m ;; Some (Some r).

(** src/mln_fec.c:307-336: [mln_fec_recover_header_info_get] *)
Definition info_ssrc (f : list N) : N := get_be (slice 8 4 f).
Definition info_long (f : list N) : bool := negb (N.land (byte_at 12 f) 0x40 =? 0).
Definition info_base (f : list N) : N := get_be (slice 14 2 f).
Definition info_mask (f : list N) : N :=
  if info_long f then get_be (slice 24 6 f) else get_be (slice 24 2 f).

(** src/mln_fec.c:362-363, 463: packets with the payload type of FEC packets. *)
Definition is_fec (pt : N) (p : list N) : bool := N.land (byte_at 1 p) 0x7f =? pt.

(** src/mln_fec.c:361-390, 462-485: the loop over the packets that arrived.  A
    packet the mask names is folded into the accumulator by [f] and its bit is
    cleared. *)
Fixpoint scan (pt base : N) (width : Z) (f : list N -> list N -> list N)
    (ps : list (list N)) (mask : N) (acc : list N) : option (N * list N) :=
  match ps with
  | [] => Some (mask, acc)
  | p :: ps' =>
      if is_fec pt p then scan pt base width f ps' mask acc
      else if seq_of p <? base then scan pt base width f ps' mask acc
      else
        b <- bit (width - dist base (seq_of p)) ;;
        if N.land mask b =? 0 then scan pt base width f ps' mask acc
        else scan pt base width f ps' (N.ldiff mask b) (f acc p)
  end.

(** src/mln_fec.c:396-404: the lowest bit of the mask, and the mask shifted
    beyond it.  [fuel] is the number of bits. *)
Fixpoint low_bit (fuel : nat) (mask i : N) : N * N :=
  match fuel with
  | O => (i, mask)
  | S fuel' =>
      if mask =? 0 then (i, 0)
      else if N.odd mask then (i, mask / 2)
      else low_bit fuel' (mask / 2) (i + 1)
  end.

Inductive hres : Type :=
| HErr                                   (* -1 *)
| HNothing                               (* nothing to recover *)
| HOk (hdr : list N) (body_len : N).

(** src/mln_fec.c:338-434: [mln_fec_decode_header] *)
Definition decode_header (pt : N) (f : list N) (ps : list (list N)) : option hres :=
  let width := if info_long f then 47%Z else 15%Z in
  r <- scan pt (info_base f) width (fun t p => fec_xor t (header_bits p)) ps
         (info_mask f) (repeat 0 10) ;;
  let mask := fst r in
  if mask =? 0 then Some HNothing
  else
    let lb := low_bit 64 mask 0 in
    let seq := (Z.to_N ((width - Z.of_N (fst lb)) mod 65536) + info_base f) mod 65536 in
    if negb (snd lb =? 0) then Some HErr
    else
      let res := fec_xor (snd r) (slice 12 10 f) in
      Some (HOk (N.lor (N.land (byte_at 0 res) 0x3f) 0x80 :: byte_at 1 res
                 :: put_be 2 seq ++ slice 4 4 res ++ put_be 4 (info_ssrc f))
                (get_be (slice 8 2 res))).

(** src/mln_fec.c:436-490: [mln_fec_decode_body]; [None] when one of the copies
    leaves its buffer. *)
Definition decode_body (pt : N) (f : list N) (ps : list (list N)) (body_len : N)
  : option (list N) :=
  let plen := N.to_nat (get_be (slice 22 2 f)) in
  let off := if info_long f then 30%nat else 26%nat in
  let width := if info_long f then 47%Z else 15%Z in
  start <- (if Nat.ltb off (length f) then
              if Nat.leb RTP_FIXEDLEN plen && Nat.leb plen R_MAXLEN
                 && Nat.leb (off + (plen - RTP_FIXEDLEN)) (length f)
              then Some (repeat 0 RTP_FIXEDLEN ++ slice off (plen - RTP_FIXEDLEN) f)
              else None
            else if Nat.leb plen R_MAXLEN then Some (repeat 0 plen) else None) ;;
  r <- scan pt (info_base f) width
         (fun t p => fec_xor t (if Nat.ltb plen (length p) then firstn plen p else p)) ps
         (info_mask f) start ;;
  let n := N.to_nat body_len in
  if Nat.leb (RTP_FIXEDLEN + n) (length (snd r)) && Nat.leb (RTP_FIXEDLEN + n) R_MAXLEN
  then Some (slice RTP_FIXEDLEN n (snd r)) else None.

(** src/mln_fec.c:510-523: the lengths and the FEC packet. *)
Definition bad_len (pt : N) (p : list N) : bool :=
  Nat.ltb (length p) RTP_FIXEDLEN || Nat.ltb R_MAXLEN (length p) ||
  (is_fec pt p &&
   (Nat.ltb (length p) 26 ||
    (negb (N.land (byte_at 12 p) 0x40 =? 0) && Nat.ltb (length p) 30))).

(** src/mln_fec.c:492-580: [mln_fec_decode].  Outer [None]: undefined; inner
    [None]: NULL; otherwise the packets of the result. *)
Definition fec_decode (pt : N) (ps : list (list N)) : option (option (list (list N))) :=
  if Nat.eqb (length ps) 0 then Some None
  else if existsb (bad_len pt) ps then Some None
  else
    match filter (is_fec pt) ps with
    | [] => Some (Some [])
    | [f] =>
        h <- decode_header pt f ps ;;
        match h with
        | HErr => Some None
        | HNothing => Some (Some [])
        | HOk hdr body_len =>
            b <- decode_body pt f ps body_len ;;
            Some (Some [hdr ++ b])
        end
    | _ => Some None
    end.

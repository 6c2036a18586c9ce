(** Model of the byte-order macros of include/mln_utils.h:144-159. A 64-bit shift by 64 or more is undefined: [None].
    The buffer is the list of bytes from the buffer pointer on. *)
Require Import List Arith NArith Bool.
Require Import Verif.Base.
Import ListNotations.
Open Scope N_scope.

(** include/mln_utils.h:148 one byte: ((mln_u64_t)num >> sh) & 0xff *)
Definition shr64 (x sh : N) : option N := if sh <? 64 then Some (N.shiftr (x mod 2^64) sh) else None.
Definition shl64 (x sh : N) : option N := if sh <? 64 then Some (N.shiftl x sh mod 2^64) else None.

(** lines 144-150 mln_bigendian_encode: iterations [k] remaining; i = Blen - k. Result: buffer contents, and the rest of the
    buffer the advanced pointer designates; writing past the end is [None]. *)
Fixpoint be_encode (k : nat) (num : N) (buf : list N) : option (list N * list N) :=
  match k with
  | O => Some ([], buf)
  | S k' =>
      b <- shr64 num (8 * N.of_nat k') ;;
      match buf with
      | [] => None
      | _ :: buf' => r <- be_encode k' num buf' ;; Some (N.land b 255 :: fst r, snd r)
      end
  end.

(** lines 152-159 mln_bigendian_decode into a variable of [w] bits (the assignment truncates). *)
Fixpoint be_decode (k : nat) (w : N) (num : N) (buf : list N) : option (N * list N) :=
  match k with
  | O => Some (num, buf)
  | S k' =>
      match buf with
      | [] => None
      | b :: buf' =>
          s <- shl64 (N.land b 255) (8 * N.of_nat k') ;;
          be_decode k' w (N.lor num s mod 2^w) buf'
      end
  end.

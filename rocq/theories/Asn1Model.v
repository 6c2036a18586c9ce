(** Model of the ASN.1 encoder and decoder, src/mln_asn1.c.

    Memory allocation is taken to succeed; the growth of the arrays of pointers
    (lines 177-190 and 356-362) is not modelled, so a list of contents is a list.
    Bytes are numbers below 256. *)
Require Import List NArith ZArith Bool.
Import ListNotations.
Require Import Verif.Base Verif.CalModel.
Local Open Scope N_scope.

(** * Decoding *)

(** mln_asn1_deresult_t, include/mln_asn1.h:50-61: the bytes of the element, its
    class, whether it is constructed, its identifier, and its contents. *)
Inductive dres := DRes (code : list N) (cls : N) (str : bool) (idn : N) (contents : list dres).

(** M_ASN1_ID_NONE, include/mln_asn1.h:29. *)
Definition ID_NONE : N := 0xfffffff.

(** What a call of the decoder ends in: a result and the bytes after it, one of the
    two error codes, or undefined behaviour.  [Stuck] is the model running out of
    its recursion bound. *)
Inductive outcome (A : Type) :=
  Done (r : A) (rest : list N) | Incomplete | Error | Undefined | Stuck.
Arguments Done {A}. Arguments Incomplete {A}. Arguments Error {A}.
Arguments Undefined {A}. Arguments Stuck {A}.

(** The loop src/mln_asn1.c:157-159 over the length bytes.  Each byte is promoted
    to int and shifted: [None] when the shift count reaches the width of int or
    the value leaves int. *)
Fixpoint read_length (l : list N) (acc : N) : option N :=
  match l with
  | [] => Some acc
  | q :: t =>
      let s := 8 * N.of_nat (length t) in
      if (s <? 32) && (N.shiftl q s <? 2 ^ 31)
      then read_length t (N.lor acc (N.shiftl q s))
      else None
  end.

(** The loop src/mln_asn1.c:171-192 over the elements of a constructed one:
    decode until the given bytes are used up. *)
Fixpoint decode_all (dec : list N -> outcome dres) (n : nat) (l : list N) : outcome (list dres) :=
  match l with
  | [] => Done [] []
  | _ =>
      match n with
      | O => Stuck
      | S n' =>
          match dec l with
          | Done r rest =>
              match decode_all dec n' rest with
              | Done rs e => Done (r :: rs) e
              | Incomplete => Incomplete | Error => Error
              | Undefined => Undefined | Stuck => Stuck
              end
          | Incomplete => Incomplete | Error => Error
          | Undefined => Undefined | Stuck => Stuck
          end
      end
  end.

(** The end of mln_asn1_decode_recursive, src/mln_asn1.c:163-206, once tag and
    length are read: [used] is what was read so far, [after] the bytes behind it. *)
Definition decode_body (dec : list N -> outcome dres) (used : list N) (ch : N)
    (len : N) (after : list N) : outcome dres :=
  if N.of_nat (length after) <? len then Incomplete
  else
    let body := firstn (N.to_nat len) after in
    let rest := skipn (N.to_nat len) after in
    let cls := N.land (N.shiftr ch 6) 3 in
    let idn := N.land ch 31 in
    if N.testbit ch 5 then
      match decode_all dec (length body) body with
      | Done rs _ => Done (DRes (used ++ body) cls true idn rs) rest
      | Incomplete => Incomplete | Error => Error
      | Undefined => Undefined | Stuck => Stuck
      end
    else Done (DRes (used ++ body) cls false idn [DRes body 0 false ID_NONE []]) rest.

(** mln_asn1_decode_recursive, src/mln_asn1.c:125-207.  [code] is the memory from
    *code up to *code + *code_len; the bytes left over are the new *code. *)
Fixpoint decode_recursive (fuel : nat) (code : list N) : outcome dres :=
  match fuel with
  | O => Stuck
  | S f =>
      match code with
      | tag :: ch :: p =>
          if N.testbit ch 7 then
            let k := N.land ch 127 in
            if 8 <? k then Error
            else if N.of_nat (length p) <=? k then Incomplete
            else
              let lb := firstn (N.to_nat k) p in
              match read_length lb 0 with
              | None => Undefined
              | Some len =>
                  decode_body (decode_recursive f) (tag :: ch :: lb) tag len (skipn (N.to_nat k) p)
              end
          else decode_body (decode_recursive f) [tag; ch] tag ch p
      | _ => Incomplete
      end
  end.

(** mln_asn1_decode and mln_asn1_decode_ref, src/mln_asn1.c:109-123.  They differ in
    who frees the data.  Every element takes at least two bytes, so the number of
    bytes bounds the depth of the recursion. *)
Definition asn1_decode (data : list N) : outcome dres := decode_recursive (S (length data)) data.

(** mln_asn1_decode_chain, src/mln_asn1.c:63-107, for buffers in memory: the
    buffers are copied together and decoded.  Buffers in files are not modelled. *)
Definition asn1_decode_chain (bufs : list (list N)) : outcome dres := asn1_decode (concat bufs).

(** mln_asn1_deresult_content_get, src/mln_asn1.c:209-215. *)
Definition content_get (r : dres) (i : nat) : option dres :=
  let '(DRes _ _ _ _ cs) := r in nth_error cs i.

(** * Encoding *)

(** mln_asn1_enresult_t, include/mln_asn1.h:80-89. *)
Record enres := E { ecls : N; estr : bool; eidn : N; esize : N; econts : list (list N) }.

(** mln_asn1_enresult_init, src/mln_asn1.c:307-319. *)
Definition en_init : enres := E 0 false ID_NONE 0 [].

(** The macros setting the fields, include/mln_asn1.h:93-98: class has 2 bits,
    ident 29. *)
Definition class_set (r : enres) (c : N) : enres := E (c mod 4) (estr r) (eidn r) (esize r) (econts r).
Definition struct_set (r : enres) : enres := E (ecls r) true (eidn r) (esize r) (econts r).
Definition struct_reset (r : enres) : enres := E (ecls r) false (eidn r) (esize r) (econts r).
Definition ident_set (r : enres) (i : N) : enres := E (ecls r) (estr r) (i mod 2 ^ 29) (esize r) (econts r).

(** mln_asn1_encode_length_calc, src/mln_asn1.c:372-408: the size of the element. *)
Definition length_calc (n : N) : N :=
  let len := (n + 1) mod 2 ^ 64 in
  (len +
   (if 127 <? n then
      if 0xff <? n then
        if 0xffff <? n then
          if 0xffffff <? n then
            if 0xffffffff <? n then
              if 0xffffffffff <? n then
                if 0xffffffffffff <? n then
                  if 0xffffffffffffff <? n then 9 else 8
                else 7
              else 6
            else 5
          else 4
        else 3
      else 2
    else 1)) mod 2 ^ 64.

(** One byte of a length, [(bytes >> s) & 0xff]. *)
Definition lb (n s : N) : N := N.land (N.shiftr n s) 255.

(** mln_asn1_encode_length_fill, src/mln_asn1.c:410-481: the bytes written. *)
Definition length_fill (n : N) : list N :=
  if 127 <? n then
    if 0xff <? n then
      if 0xffff <? n then
        if 0xffffff <? n then
          if 0xffffffff <? n then
            if 0xffffffffff <? n then
              if 0xffffffffffff <? n then
                if 0xffffffffffffff <? n
                then [0x88; lb n 56; lb n 48; lb n 40; lb n 32; lb n 24; lb n 16; lb n 8; lb n 0]
                else [0x87; lb n 48; lb n 40; lb n 32; lb n 24; lb n 16; lb n 8; lb n 0]
              else [0x86; lb n 40; lb n 32; lb n 24; lb n 16; lb n 8; lb n 0]
            else [0x85; lb n 32; lb n 24; lb n 16; lb n 8; lb n 0]
          else [0x84; lb n 24; lb n 16; lb n 8; lb n 0]
        else [0x83; lb n 16; lb n 8; lb n 0]
      else [0x82; lb n 8; lb n 0]
    else [0x81; N.land n 255]
  else [N.land n 255].

(** The first byte of an element, as in src/mln_asn1.c:497 and 528: [con] is the
    constructed bit, [dflt] the identifier used when none was set. *)
Definition tag_byte (r : enres) (con : bool) (dflt : N) : N :=
  N.lor (N.lor (N.shiftl (ecls r) 6) (if con then 32 else 0))
        (if eidn r =? ID_NONE then dflt else N.land (eidn r) 31).

(** The writes into the buffer of [length_calc n] bytes: tag, length and content.
    [None] when they do not fill exactly that buffer. *)
Definition fill_buffer (n tag : N) (content : list N) : option (list N) :=
  let buf := tag :: length_fill n ++ content in
  if N.of_nat (length buf) =? length_calc n then Some buf else None.

(** The common body of the encoders of primitive values, as in
    src/mln_asn1.c:541-565. *)
Definition encode_prim (r : enres) (dflt : N) (content : list N) : option enres :=
  let n := N.of_nat (length content) in
  buf <- fill_buffer n (tag_byte r (estr r) dflt) content ;;
  Some (E (ecls r) (estr r) (eidn r) ((esize r + length_calc n) mod 2 ^ 64) (econts r ++ [buf])).

(** mln_asn1_encode_boolean, src/mln_asn1.c:515-539 *)
Definition encode_boolean (r : enres) (v : N) := encode_prim r 1 [v].
(** mln_asn1_encode_integer, src/mln_asn1.c:541-565 *)
Definition encode_integer (r : enres) (ints : list N) := encode_prim r 2 ints.
(** mln_asn1_encode_octetstring, src/mln_asn1.c:599-622 *)
Definition encode_octetstring (r : enres) (l : list N) := encode_prim r 4 l.
(** mln_asn1_encode_null, src/mln_asn1.c:624-641, which writes the two bytes directly *)
Definition encode_null (r : enres) : option enres :=
  Some (E (ecls r) (estr r) (eidn r) ((esize r + 2) mod 2 ^ 64) (econts r ++ [[tag_byte r (estr r) 5; 0]])).
(** mln_asn1_encode_object_identifier, src/mln_asn1.c:643-668 *)
Definition encode_object_identifier (r : enres) (l : list N) := encode_prim r 6 l.
(** mln_asn1_encode_utf8string, src/mln_asn1.c:670-693 *)
Definition encode_utf8string (r : enres) (l : list N) := encode_prim r 12 l.
(** mln_asn1_encode_printablestring, src/mln_asn1.c:695-723, with mln_isprint,
    include/mln_utils.h:172; bytes from 128 on are negative as signed characters and
    are refused either way.  The flag is whether OK is returned. *)
Definition encode_printablestring (r : enres) (l : list N) : option (bool * enres) :=
  if forallb (fun c => (32 <=? c) && (c <=? 126)) l
  then r' <- encode_prim r 19 l ;; Some (true, r')
  else Some (false, r).
(** mln_asn1_encode_t61string, src/mln_asn1.c:725-748 *)
Definition encode_t61string (r : enres) (l : list N) := encode_prim r 20 l.
(** mln_asn1_encode_ia5string, src/mln_asn1.c:750-773 *)
Definition encode_ia5string (r : enres) (l : list N) := encode_prim r 22 l.

(** mln_asn1_encode_bitstring, src/mln_asn1.c:567-597: [bits] is the memory at the
    pointer, [nbits] the number of bits; [None] when too few bytes are there.  The
    last byte is stored, then shifted down and up in place. *)
Definition encode_bitstring (r : enres) (bits : list N) (nbits : N) : option enres :=
  let bytes := (1 + (if nbits mod 8 =? 0 then N.shiftr nbits 3 else N.shiftr nbits 3 + 1)) in
  let m := N.to_nat (bytes - 1) in
  if Nat.ltb (length bits) m then None
  else
    let unused := if nbits mod 8 =? 0 then 0 else 8 - nbits mod 8 in
    let data := firstn m bits in
    let data :=
      if nbits mod 8 =? 0 then data
      else upd data (m - 1) (N.land (N.shiftl (N.land (N.shiftr (nth (m - 1) data 0) unused) 255) unused) 255) in
    encode_prim r 3 (unused :: data).

(** One digit, [x + '0'] stored in a byte. *)
Definition chr (x : Z) : N := Z.to_N ((x + 48) mod 256).
(** The two digits of a field. *)
Definition two_digits (x : Z) : list N := [chr (x / 10); chr (x mod 10)].

(** mln_asn1_encode_utctime, src/mln_asn1.c:775-815. *)
Definition encode_utctime (r : enres) (time : Z) : option enres :=
  uc <- time2utc time ;;
  let y := (if 2000 <? year uc then year uc - 2000 else year uc - 1900)%Z in
  encode_prim r 23 (two_digits y ++ two_digits (month uc) ++ two_digits (day uc) ++
    two_digits (hour uc) ++ two_digits (minute uc) ++ two_digits (second uc) ++ [90]).

(** mln_asn1_encode_generalized_time, src/mln_asn1.c:817-857. *)
Definition encode_generalized_time (r : enres) (time : Z) : option enres :=
  uc <- time2utc time ;;
  let y := year uc in
  encode_prim r 24 ([chr (y / 1000); chr (y mod 1000 / 100); chr (y mod 100 / 10); chr (y mod 10)]%Z ++
    two_digits (month uc) ++ two_digits (day uc) ++
    two_digits (hour uc) ++ two_digits (minute uc) ++ two_digits (second uc) ++ [90]).

(** The common body of the encoders of constructed values, src/mln_asn1.c:483-513:
    everything encoded so far becomes the content of one element. *)
Definition wrap (r : enres) (dflt : N) (parts : list (list N)) : option enres :=
  buf <- fill_buffer (esize r) (tag_byte r true dflt) (concat parts) ;;
  Some (E (ecls r) (estr r) (eidn r) (length_calc (esize r)) [buf]).

(** mln_asn1_encode_sequence, src/mln_asn1.c:483-513 *)
Definition encode_sequence (r : enres) : option enres := wrap r 16 (econts r).

(** Insertion, the step of the sort that stands for qsort; [le a b] is [cmp a b <= 0]. *)
Fixpoint insert_by (le : list N -> list N -> bool) (x : list N) (l : list (list N)) : list (list N) :=
  match l with
  | [] => [x]
  | y :: t => if le x y then x :: y :: t else y :: insert_by le x t
  end.
Fixpoint sort_by (le : list N -> list N -> bool) (l : list (list N)) : list (list N) :=
  match l with [] => [] | x :: t => insert_by le x (sort_by le t) end.

(** mln_encode_set_cmp, src/mln_asn1.c:888-894: by the first byte. *)
Definition set_le (a b : list N) : bool := nth 0 a 0 <=? nth 0 b 0.
(** mln_encode_setof_cmp, src/mln_asn1.c:925-935: bytewise, the shorter first. *)
Fixpoint setof_le (a b : list N) : bool :=
  match a, b with
  | [], _ => true
  | _ :: _, [] => false
  | x :: a', y :: b' => if x =? y then setof_le a' b' else x <? y
  end.

(** mln_asn1_encode_set, src/mln_asn1.c:859-886.  The C library does not say how
    qsort places elements that compare equal; the model keeps their order. *)
Definition encode_set (r : enres) : option enres := wrap r 17 (sort_by set_le (econts r)).
(** mln_asn1_encode_setof, src/mln_asn1.c:896-923. *)
Definition encode_setof (r : enres) : option enres := wrap r 17 (sort_by setof_le (econts r)).

(** mln_asn1_encode_merge, src/mln_asn1.c:937-953: copies the contents over. *)
Definition encode_merge (dest src : enres) : enres :=
  E (ecls dest) (estr dest) (eidn dest) ((esize dest + esize src) mod 2 ^ 64) (econts dest ++ econts src).

(** mln_asn1_encode_trans_chain_once, src/mln_asn1.c:955-986: the contents as a
    chain of buffers, and the emptied result. *)
Definition trans_chain_once (r : enres) : list (list N) * enres :=
  (econts r, E (ecls r) (estr r) (eidn r) 0 []).

(** mln_asn1_enresult_get_content, src/mln_asn1.c:988-998. *)
Definition get_content (r : enres) (i : nat) : option (list N) := nth_error (econts r) i.

(** mln_asn1_encode_implicit, src/mln_asn1.c:1000-1010.  The flag is whether OK is
    returned; [None] is a read of the first byte of an empty string. *)
Definition encode_implicit (r : enres) (ident : N) (i : nat) : option (bool * enres) :=
  match nth_error (econts r) i with
  | None => Some (false, r)
  | Some [] => None
  | Some (t :: s') =>
      let t' := N.lor (N.land t 32) (N.lor 128 ident) mod 256 in
      Some (true, E (ecls r) (estr r) (eidn r) (esize r) (upd (econts r) i (t' :: s')))
  end.

(** Model of src/mln_base64.c (the malloc and the pool variants have identical loops, lines 12-56/58-102 and 104-154/156-206).
    The output buffer is an explicit list of cells; a read or write outside a buffer gives [None]. *)
Require Import List Arith NArith Lia Bool.
Require Import Verif.Base.
Import ListNotations.
Open Scope N_scope.

(** src/mln_base64.c:10 base_map, as ASCII codes: A-Z a-z 0-9 + / *)
Definition base_map : list N :=
  map (fun k => 65 + N.of_nat k) (seq 0 26) ++ map (fun k => 97 + N.of_nat k) (seq 0 26) ++
  map (fun k => 48 + N.of_nat k) (seq 0 10) ++ [43; 47].

Definition bm (i : N) : option N := nth_error base_map (N.to_nat i).

(** '=' *)
Definition eqc : N := 61.

(** lines 26-53: loop of mln_base64_encode. [fuel] bounds the number of iterations. *)
Fixpoint enc_loop (fuel : nat) (inb : list N) (i : nat) (state : nat) (j : nat) (o : list N) : option (list N) :=
  match fuel with
  | O => None
  | S fuel' =>
      if (i <? length inb)%nat then
        match state with
        | 0%nat =>
            x <- nth_error inb i ;;
            c <- bm (N.land (N.shiftr x 2) 63) ;;
            o <- store o j c ;;
            enc_loop fuel' inb i 1 (S j) o
        | 1%nat =>
            x <- nth_error inb i ;;
            if (length inb <=? i + 1)%nat then
              c <- bm (N.shiftl (N.land x 3) 4) ;;
              o <- store o j c ;;
              o <- store o (S j) eqc ;;
              store o (S (S j)) eqc
            else
              y <- nth_error inb (i + 1) ;;
              c <- bm (N.lor (N.shiftl (N.land x 3) 4) (N.land (N.shiftr y 4) 15)) ;;
              o <- store o j c ;;
              enc_loop fuel' inb (S i) 2 (S j) o
        | _ =>
            x <- nth_error inb i ;;
            if (length inb <=? i + 1)%nat then
              c <- bm (N.shiftl (N.land x 15) 2) ;;
              o <- store o j c ;;
              store o (S j) eqc
            else
              y <- nth_error inb (i + 1) ;;
              c <- bm (N.lor (N.shiftl (N.land x 15) 2) (N.land (N.shiftr y 6) 3)) ;;
              o <- store o j c ;;
              d <- bm (N.land y 63) ;;
              o <- store o (S j) d ;;
              enc_loop fuel' inb (S (S i)) 0 (S (S j)) o
        end
      else Some o
  end.

(** lines 12-56 mln_base64_encode: (buffer, outlen). The buffer has outlen+1 cells, all zero at first.
    Lengths are assumed not to overflow the machine word. *)
Definition b64_outlen (inlen : nat) : nat :=
  (inlen / 3 * 4 + (if inlen mod 3 =? 0 then 0 else 4))%nat.
Definition b64_encode (inb : list N) : option (list N * nat) :=
  let outlen := b64_outlen (length inb) in
  o <- enc_loop (S (length inb + length inb)) inb 0 0 0 (repeat 0 (S outlen)) ;;
  Some (o, outlen).

(** lines 110-115: the inverse table. *)
Definition ascii_tbl : list N :=
  fold_left (fun t i => upd t (N.to_nat (nth i base_map 0)) (N.of_nat i)) (seq 0 64) (repeat 0 256).
Definition asc (c : N) : option N := nth_error ascii_tbl (N.to_nat c).

(** Stores into mln_u8_t cells keep the low eight bits. *)
Definition u8 (x : N) : N := N.land x 255.

(** lines 125-151: loop of mln_base64_decode. *)
Fixpoint dec_loop (fuel : nat) (inb : list N) (i : nat) (state : nat) (j : nat) (o : list N) : option (list N) :=
  match fuel with
  | O => None
  | S fuel' =>
      if (i <? length inb)%nat then
        x <- nth_error inb i ;;
        a <- asc x ;;
        match state with
        | 0%nat => o <- store o j (u8 (N.shiftl a 2)) ;; dec_loop fuel' inb (S i) 1 j o
        | 1%nat => p <- nth_error o j ;;
                   o <- store o j (N.lor p (N.land (N.shiftr a 4) 3)) ;; dec_loop fuel' inb i 2 (S j) o
        | 2%nat => o <- store o j (u8 (N.shiftl (N.land a 15) 4)) ;; dec_loop fuel' inb (S i) 3 j o
        | 3%nat => if x =? eqc then Some o else
                   p <- nth_error o j ;;
                   o <- store o j (N.lor p (N.land (N.shiftr a 2) 15)) ;; dec_loop fuel' inb i 4 (S j) o
        | 4%nat => o <- store o j (u8 (N.shiftl (N.land a 3) 6)) ;; dec_loop fuel' inb (S i) 5 j o
        | _ => if x =? eqc then Some o else
               p <- nth_error o j ;;
               o <- store o j (N.lor p (N.land a 63)) ;; dec_loop fuel' inb (S i) 0 (S j) o
        end
      else Some o
  end.

Inductive dec_result := DecErr | DecOk (buf : list N) (outlen : nat).

(** lines 104-154 mln_base64_decode. [in[inlen-1]] and [in[inlen-2]] are read even when inlen = 0,
    which is an access before the buffer: [None]. *)
Definition b64_decode (inb : list N) : option dec_result :=
  if negb (length inb mod 4 =? 0)%nat then Some DecErr
  else if (length inb <? 2)%nat then None
  else
    l1 <- nth_error inb (length inb - 1) ;;
    l2 <- nth_error inb (length inb - 2) ;;
    let outlen := (length inb / 4 * 3)%nat in
    let outlen := if l1 =? eqc then (outlen - 1)%nat else outlen in
    let outlen := if l2 =? eqc then (outlen - 1)%nat else outlen in
    o <- dec_loop (S (length inb + length inb)) inb 0 0 0 (repeat 0 (S outlen)) ;;
    Some (DecOk o outlen).

(** Model of src/mln_bignum.c: comparison, addition, subtraction, multiplication, division and shifts.
    Limbs are [N] values held in 64-bit words; additions and products of words are reduced modulo 2^64 ([w64]).
    [None] is an access outside an array or a failed assert. Structures are passed by value: a call whose operands are
    the same object ([mln_bignum_mul(x, x)] inside the power function) reads its operands before it writes them. *)
Require Import List Arith NArith ZArith Bool.
Require Import Verif.Base.
Import ListNotations.
Open Scope N_scope.

(** include/mln_bignum.h:14-17 *)
Definition SIZE : nat := 257.
Definition BITS : N := 8224.
Definition B32 : N := 2 ^ 32.
Definition w64 (x : N) : N := x mod 2 ^ 64.

(** include/mln_bignum.h:19-23 mln_bignum_t; [neg] is tag == M_BIGNUM_NEGATIVE. *)
Record bn := mkBn { neg : bool; len : nat; dat : list N }.

(** include/mln_bignum.h:43 mln_bignum_zero; a structure cleared by memset (src/mln_bignum.c:339, 559 and others) is the same. *)
Definition zeros (n : nat) : list N := repeat 0 n.
Definition bn_zero : bn := mkBn false 0 (zeros SIZE).
Definition set_neg (b : bn) (t : bool) : bn := mkBn t (len b) (dat b).

(** Write [r] over the first limbs of [l]. *)
Definition overlay (r l : list N) : list N := r ++ skipn (length r) l.

(** Index + 1 of the highest non-zero limb among the first [n] (loops at src/mln_bignum.c:161-164, 384-388, 781-784, 825-828). *)
Fixpoint top (n : nat) (l : list N) : option nat :=
  match n with
  | O => Some O
  | S k => x <- nth_error l k ;; if x =? 0 then top k l else Some n
  end.

(** src/mln_bignum.c:295-302 the limb loop of __mln_bignum_add. *)
Fixpoint add_limbs (n : nat) (a b : list N) (c : N) : option (list N * N) :=
  match n with
  | O => Some ([], c)
  | S k =>
      match a, b with
      | x :: a', y :: b' =>
          let s := w64 (x + y + c) in
          let '(d, c') := if B32 <=? s then (s - B32, 1) else (s, 0) in
          r <- add_limbs k a' b' c' ;; Some (d :: fst r, snd r)
      | _, _ => None
      end
  end.

(** src/mln_bignum.c:283-310 __mln_bignum_add, operands of equal sign. *)
Definition bn_sum (d s : bn) : option bn :=
  r <- (if (len d <? len s)%nat then add_limbs (len s) (dat s) (dat d) 0 else add_limbs (len d) (dat d) (dat s) 0) ;;
  let '(limbs, carry) := r in
  let n := length limbs in
  let data := overlay limbs (dat d) in
  if negb (carry =? 0) && (n <? SIZE)%nat then
    x <- nth_error data n ;; data <- store data n (w64 (x + carry)) ;; Some (mkBn (neg d) (S n) data)
  else Some (mkBn (neg d) n data).

(** src/mln_bignum.c:373-381 the limb loop of __mln_bignum_sub_core. *)
Fixpoint sub_limbs (n : nat) (a b : list N) (c : N) : option (list N * N) :=
  match n with
  | O => Some ([], c)
  | S k =>
      match a, b with
      | x :: a', y :: b' =>
          let '(d, c') := if x <? w64 (y + c) then (w64 (x + B32) - w64 (y + c), 1) else (x - w64 (y + c), 0) in
          r <- sub_limbs k a' b' c' ;; Some (d :: fst r, snd r)
      | _, _ => None
      end
  end.

(** src/mln_bignum.c:367-389 __mln_bignum_sub_core; the assert stops the program when a borrow remains. *)
Definition bn_sub_core (d s : bn) : option bn :=
  r <- sub_limbs (len d) (dat d) (dat s) 0 ;;
  let '(limbs, borrow) := r in
  if borrow =? 0 then
    let data := overlay limbs (dat d) in
    n <- top (len d) data ;; Some (mkBn (neg d) n data)
  else None.

(** src/mln_bignum.c:689-693, 724-728 limbs compared from the top. *)
Fixpoint cmp_down (k : nat) (a b : list N) : option Z :=
  match k with
  | O => Some 0%Z
  | S j =>
      x <- nth_error a j ;; y <- nth_error b j ;;
      if y <? x then Some 1%Z else if x <? y then Some (-1)%Z else cmp_down j a b
  end.

(** src/mln_bignum.c:679-696 __mln_bignum_abs_compare. *)
Definition bn_abs_compare (a b : bn) : option Z :=
  if negb (len a =? len b)%nat then Some (if (len b <? len a)%nat then 1%Z else (-1)%Z)
  else if (len a =? 0)%nat then Some 0%Z
  else cmp_down (len a) (dat a) (dat b).

(** src/mln_bignum.c:702-731 __mln_bignum_compare. *)
Definition bn_compare (a b : bn) : option Z :=
  if (len a =? len b)%nat && (len a =? 0)%nat then Some 0%Z
  else if xorb (neg a) (neg b) then Some (if neg a then (-1)%Z else 1%Z)
  else if negb (len a =? len b)%nat then
    Some (if neg a then (if (len b <? len a)%nat then (-1)%Z else 1%Z)
          else (if (len b <? len a)%nat then 1%Z else (-1)%Z))
  else cmp_down (len a) (dat a) (dat b).

(** src/mln_bignum.c:317-365 __mln_bignum_sub, operands of equal sign. *)
Definition bn_diff (d s : bn) : option bn :=
  ret <- bn_compare d s ;;
  if (ret =? 0)%Z then Some bn_zero
  else if (ret <? 0)%Z then
    if neg d then r <- bn_sub_core (set_neg d false) (set_neg s false) ;; Some (set_neg r true)
    else r <- bn_sub_core s d ;; Some (set_neg r true)
  else
    if neg d then r <- bn_sub_core (set_neg s false) (set_neg d false) ;; Some (set_neg r false)
    else bn_sub_core d s.

(** src/mln_bignum.c:265-282 and 317-334: operands of different sign are handed to the other operation with one sign
    changed, so the two functions never call each other more than once. *)
Definition bn_add (d s : bn) : option bn :=
  if xorb (neg d) (neg s) then
    if neg d then bn_diff s (set_neg d false) else bn_diff d (set_neg s false)
  else bn_sum d s.
Definition bn_sub (d s : bn) : option bn :=
  if xorb (neg d) (neg s) then bn_sum d (set_neg s (neg d)) else bn_diff d s.

(** src/mln_bignum.c:853-857 the limb loop of __mln_bignum_mul_word, also 470-474 in __mln_bignum_nmul. *)
Fixpoint mulw_limbs (n : nat) (a : list N) (w c : N) : option (list N * N) :=
  match n with
  | O => Some ([], c)
  | S k =>
      match a with
      | x :: a' =>
          let t := w64 (x * w + c) in
          r <- mulw_limbs k a' w (t / B32) ;; Some (t mod B32 :: fst r, snd r)
      | [] => None
      end
  end.

(** src/mln_bignum.c:858-864 [while (carry)]: the pointer does not move, so each turn adds to the same limb. *)
Fixpoint mulw_carry (fuel : nat) (data : list N) (i n : nat) (c : N) : option (list N * nat) :=
  if c =? 0 then Some (data, n)
  else
    match fuel with
    | O => None
    | S f =>
        if (i <? SIZE)%nat then
          x <- nth_error data i ;;
          let t := w64 (x + c) in
          data <- store data i (t mod B32) ;; mulw_carry f data i (S n) (t / B32)
        else Some (data, n)
    end.

(** src/mln_bignum.c:836-866 __mln_bignum_mul_word; the callers pass one limb, never a negative number. *)
Definition bn_mul_word (d : bn) (w : N) : option bn :=
  r <- mulw_limbs (len d) (dat d) (w mod B32) 0 ;;
  let '(limbs, carry) := r in
  r <- mulw_carry 3 (overlay limbs (dat d)) (len d) (len d) carry ;;
  Some (mkBn (neg d) (snd r) (fst r)).

(** src/mln_bignum.c:421-425 one row of the product; [acc] is the result from the row's first limb up to the last limb of
    the structure. *)
Definition add_head (h : N) (l : list N) : list N :=
  match l with [] => [] | y :: t => w64 (y + h) :: t end.
Fixpoint mul_row (x : N) (s acc : list N) : list N :=
  match s, acc with
  | y :: s', a :: acc' => let t := w64 (x * y + a) in t mod B32 :: mul_row x s' (add_head (t / B32) acc')
  | _, _ => acc
  end.
(** src/mln_bignum.c:417-426 all rows. *)
Fixpoint mul_rows (d s acc : list N) : list N :=
  match d with
  | [] => acc
  | x :: d' => match mul_row x s acc with [] => [] | a :: acc' => a :: mul_rows d' s acc' end
  end.

(** src/mln_bignum.c:391-431 __mln_bignum_mul. The pointer [data] ends at the limb after the last one written by the last
    row: index dlen - 1 + slen, at most 257. *)
Definition bn_mul (d s : bn) : option bn :=
  let tag := xorb (neg d) (neg s) in
  if (len s =? 1)%nat then
    w <- nth_error (dat s) 0 ;; r <- bn_mul_word d w ;; Some (set_neg r tag)
  else if (len d =? 1)%nat then
    w <- nth_error (dat d) 0 ;; r <- bn_mul_word s w ;; Some (set_neg r tag)
  else
    c1 <- bn_abs_compare d bn_zero ;; c2 <- bn_abs_compare s bn_zero ;;
    if (c1 =? 0)%Z || (c2 =? 0)%Z then Some bn_zero
    else
      if (length (dat d) <? len d)%nat || (length (dat s) <? len s)%nat then None
      else
        let res := mul_rows (firstn (len d) (dat d)) (firstn (len s) (dat s)) (zeros SIZE) in
        let n := Nat.min (len d - 1 + len s) SIZE in
        if (n <? SIZE)%nat then
          x <- nth_error res n ;; Some (mkBn tag (if x =? 0 then n else S n) res)
        else Some (mkBn tag n res).

(** src/mln_bignum.c:902-907, also 540-547: division of limbs by one word from the top. Returns the quotient limbs (lowest
    first) and the remainder; the running word [tmp] is [t << 32]. *)
Fixpoint divw_limbs (n : nat) (a : list N) (w : N) (t : N) : option (list N * N) :=
  match n with
  | O => Some ([], t)
  | S k =>
      x <- nth_error a k ;;
      let tmp := w64 (w64 (t * B32) + x) in
      r <- divw_limbs k a w (tmp mod w) ;;
      Some (fst r ++ [tmp / w], snd r)
  end.

(** src/mln_bignum.c:868-913 __mln_bignum_div_word: remainder left in dest, quotient second; [Some None] = -1. *)
Definition bn_div_word (d : bn) (w : N) : option (option (bn * bn)) :=
  if w =? 0 then Some None
  else
    let w := w mod B32 in
    if w =? 1 then Some (Some (bn_zero, d))
    else if (len d =? 0)%nat then Some (Some (d, bn_zero))
    else
      x <- nth_error (dat d) (len d - 1) ;;
      r <- (if x <? w then
              r <- divw_limbs (len d - 1) (dat d) w x ;; Some (r, (len d - 1)%nat)
            else r <- divw_limbs (len d) (dat d) w 0 ;; Some (r, len d)) ;;
      let '((q, t), qn) := r in
      dd <- store (overlay (zeros (len d)) (dat d)) 0 t ;;
      Some (Some (mkBn (neg d) (if t =? 0 then 0%nat else 1%nat) dd, mkBn (neg d) qn (overlay q (zeros SIZE)))).

(** src/mln_bignum.c:451-482 __mln_bignum_nmul(a, b, r, n, m): the [n] limbs written to [r]. *)
Definition nmul (a : list N) (b : N) (n m : nat) : option (list N) :=
  let b := b mod B32 in
  if b =? 0 then Some (zeros n)
  else if b =? 1 then if (n <=? length a)%nat then Some (firstn n a) else None
  else
    r <- mulw_limbs m a b 0 ;;
    let '(limbs, c) := r in
    Some (firstn n (limbs ++ c mod B32 :: zeros n)).

(** src/mln_bignum.c:484-499 __mln_bignum_nsbb and 501-516 __mln_bignum_nadc are the limb loops above. *)
Definition nsbb (a b : list N) (n : nat) : option (list N * N) := sub_limbs n a b 0.
Definition nadc (a b : list N) (n : nat) : option (list N * N) := add_limbs n a b 0.

(** src/mln_bignum.c:518-550 __mln_bignum_ndiv(a, b, r, n): limbs of [r] and their count. *)
Definition ndiv (a : list N) (b : N) (n : nat) : option (list N * nat) :=
  let b := b mod B32 in
  if b =? 0 then None
  else
    limbs <- (if b =? 1 then if (n <=? length a)%nat then Some (firstn n a) else None
              else r <- divw_limbs n a b 0 ;; Some (fst r)) ;;
    k <- top n limbs ;; Some (limbs, k).

(** src/mln_bignum.c:607-611 the correction loop of step D3; [None] when it has not stopped after four turns. *)
Fixpoint d3_loop (fuel : nat) (v1 v2 q r t : N) : option N :=
  match fuel with
  | O => None
  | S f =>
      if (q =? B32) || (w64 (w64 (r * B32) + t) <? w64 (q * v2)) then
        let q := q - 1 in
        let r := w64 (r + v1) in
        if B32 <=? r then Some q else d3_loop f v1 v2 q r t
      else Some q
  end.

(** src/mln_bignum.c:601-620 one turn of the loop D2: the window of slen+1 limbs is replaced by its remainder. *)
Definition d2_step (slen : nat) (ps win : list N) : option (list N * N) :=
  u1 <- nth_error win slen ;; u2 <- nth_error win (slen - 1) ;; u3 <- nth_error win (slen - 2) ;;
  v1 <- nth_error ps (slen - 1) ;; v2 <- nth_error ps (slen - 2) ;;
  if v1 =? 0 then None
  else
    let t := w64 (w64 (u1 * B32) + u2) in
    q <- d3_loop 4 v1 v2 (t / v1) (t mod v1) u3 ;;
    tmp <- nmul ps q (slen + 1) (slen + 1) ;;
    r <- nsbb win tmp (slen + 1) ;;
    if snd r =? 0 then Some (fst r, q)
    else r2 <- nadc (fst r) ps (slen + 1) ;; Some (fst r2, q - 1).

(** src/mln_bignum.c:600-622 the loop D2 for j = [j-1] .. 0; returns the final [pd] and the quotient limbs, lowest first. *)
Fixpoint d2_loop (j slen : nat) (ps pd : list N) : option (list N * list N) :=
  match j with
  | O => Some (pd, [])
  | S k =>
      r <- d2_step slen ps (firstn (slen + 1) (skipn k pd)) ;;
      let '(win, q) := r in
      let pd := firstn k pd ++ win ++ skipn (k + (slen + 1)) pd in
      r <- d2_loop k slen ps pd ;; Some (fst r, snd r ++ [q])
  end.

(** src/mln_bignum.c:552-636 __mln_bignum_div: remainder left in dest, quotient second; [Some None] = -1. *)
Definition bn_div (d s : bn) : option (option (bn * bn)) :=
  let tag := xorb (neg d) (neg s) in
  if (len s =? 0)%nat then Some None
  else if (len s =? 1)%nat then
    w <- nth_error (dat s) 0 ;;
    r <- bn_div_word d w ;;
    match r with None => Some None | Some (r, q) => Some (Some (set_neg r tag, set_neg q tag)) end
  else
    ret <- bn_abs_compare d s ;;
    if (ret =? 0)%Z then Some (Some (bn_zero, mkBn tag 1 (1 :: zeros (SIZE - 1))))
    else if (ret <? 0)%Z then Some (Some (set_neg d tag, bn_zero))
    else
      let dlen := len d in let slen := len s in
      sv <- nth_error (dat s) (slen - 1) ;;
      let dd := B32 / (sv + 1) in
      pd <- nmul (dat d) dd (dlen + 1) dlen ;;
      ps <- nmul (dat s) dd slen slen ;;
      r <- d2_loop (dlen - slen + 1) slen (ps ++ [0]) pd ;;
      let '(pd, q) := r in
      qt <- nth_error q (dlen - slen) ;;
      r <- ndiv pd dd slen ;;
      Some (Some (mkBn tag (snd r) (overlay (fst r) (zeros SIZE)),
                  mkBn tag (if qt =? 0 then (dlen - slen)%nat else (dlen - slen + 1)%nat) (overlay q (zeros SIZE)))).

(** src/mln_bignum.c:737-741 __mln_bignum_bit_test, 743-747 mln_bignum_bit_test. *)
Definition bit_test_core (b : bn) (i : N) : option bool :=
  x <- nth_error (dat b) (N.to_nat (i / 32)) ;; Some (N.testbit x (i mod 32)).
Definition bn_bit_test (b : bn) (i : N) : option bool :=
  if BITS <=? i then Some false else bit_test_core b i.

(** A pointer into the limbs, or to the local variable [tmp] whose content is dropped. *)
Definition or_at (data : list N) (last : option nat) (v : N) : option (list N) :=
  match last with
  | None => Some data
  | Some i => x <- nth_error data i ;; store data i (N.lor x v)
  end.
Definition mask32 (x : N) : N := N.land x 4294967295.

(** src/mln_bignum.c:766-771 and 774-776: limbs moved up by [step] and [off] bits, from index [k-1] down to 0. *)
Fixpoint lshift_loop (k step : nat) (off : N) (data : list N) (last : option nat) : option (list N) :=
  match k with
  | O => Some data
  | S j =>
      cur <- nth_error data j ;;
      if off =? 0 then data <- store data (j + step) cur ;; lshift_loop j step off data None
      else
        data <- or_at data last (mask32 (N.shiftr cur (32 - off))) ;;
        data <- store data (j + step) (mask32 (w64 (N.shiftl cur off))) ;;
        lshift_loop j step off data (Some (j + step)%nat)
  end.

(** src/mln_bignum.c:749-785 __mln_bignum_left_shift. With no limb to move ([bn->length] 0) nothing but zeros is written. *)
Definition bn_left_shift (b : bn) (n : N) : option bn :=
  if n =? 0 then Some b
  else
    let step := N.to_nat (n / 32) in let off := n mod 32 in
    if (SIZE <=? step)%nat then Some b
    else
      let cnt := if (SIZE <? len b + step)%nat then (SIZE - step)%nat else len b in
      let last := if (cnt + step <? SIZE)%nat then Some (cnt + step)%nat else None in
      data <- lshift_loop cnt step off (dat b) last ;;
      let data := overlay (zeros step) data in
      n <- top (if off =? 0 then (cnt + step)%nat else Nat.min (cnt + step + 1) SIZE) data ;;
      Some (mkBn (neg b) n data).

(** src/mln_bignum.c:810-815 and 818-820: [k] limbs moved down, from index [i + step] to index [i]. *)
Fixpoint rshift_loop (k i step : nat) (off : N) (data : list N) : option (list N) :=
  match k with
  | O => Some data
  | S j =>
      cur <- nth_error data (i + step) ;;
      if off =? 0 then data <- store data i cur ;; rshift_loop j (S i) step off data
      else
        data <- or_at data (match i with O => None | S p => Some p end) (mask32 (w64 (N.shiftl cur (32 - off)))) ;;
        data <- store data i (mask32 (N.shiftr cur off)) ;;
        rshift_loop j (S i) step off data
  end.

(** src/mln_bignum.c:791-829 __mln_bignum_right_shift. The scan for the new length starts one limb above the moved ones. *)
Definition bn_right_shift (b : bn) (n : N) : option bn :=
  if n =? 0 then Some b
  else
    let step := N.to_nat (n / 32) in let off := n mod 32 in
    if (SIZE <=? step)%nat then Some b
    else if (len b <=? step)%nat then Some bn_zero
    else
      let m := (len b - step)%nat in
      data <- rshift_loop m 0 step off (dat b) ;;
      let data := firstn m data ++ zeros step ++ skipn (len b) data in
      n <- top (S m) data ;;
      Some (mkBn (neg b) n data).

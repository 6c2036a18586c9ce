(** Model of src/mln_bignum.c: literals, text and octet strings.
    A result [Some None] is the return value -1 (or NULL); [None] is an access outside an array. Allocation succeeds. *)
Require Import List Arith NArith ZArith Bool.
Require Import Verif.Base Verif.BnModel.
Import ListNotations.
Open Scope N_scope.

(** include/mln_utils.h:170 mln_isdigit and the letters of src/mln_bignum.c:137-142, 148-153. Characters are bytes; those from 128 on
    are negative chars in the source and fail every range test here too. *)
Definition is_digit (c : N) : bool := (48 <=? c) && (c <=? 57).
Definition hex_digit (c : N) : option N :=
  if is_digit c then Some (c - 48)
  else if (97 <=? c) && (c <=? 102) then Some (c - 97 + 10)
  else if (65 <=? c) && (c <=? 70) then Some (c - 65 + 10)
  else None.

(** src/mln_bignum.c:158-165, 208-215 put byte [b] at byte [j] of limb [l] and advance. *)
Definition put_byte (tmp : list N) (l j b : N) : option (list N * N * N) :=
  tmp <- or_at tmp (Some (N.to_nat l)) (N.shiftl b (8 * j)) ;;
  Some (if j mod 4 =? 3 then (tmp, l + 1, 0) else (tmp, l, j + 1)).

(** src/mln_bignum.c:134-167 the loop of mln_bignum_assign_hex; [ds] are the characters from the last to the first. *)
Fixpoint hex_loop (ds : list N) (i l j b : N) (tmp : list N) : option (option (list N)) :=
  match ds with
  | [] => Some (Some tmp)
  | c :: rest =>
      match hex_digit c with
      | None => Some None
      | Some v =>
          let b := if i mod 2 =? 0 then N.land v 15 else N.lor b (N.land (N.shiftl v 4) 240) in
          if (negb (i mod 2 =? 0)) || (match rest with [] => true | _ => false end) then
            r <- put_byte tmp l j b ;; let '(tmp, l, j) := r in hex_loop rest (i + 1) l j b tmp
          else hex_loop rest (i + 1) l j b tmp
      end
  end.

(** src/mln_bignum.c:122-174 mln_bignum_assign_hex *)
Definition assign_hex (t : bool) (s : list N) : option (option bn) :=
  if BITS / 4 <? N.of_nat (length s) then Some None
  else
    r <- hex_loop (rev s) 0 0 0 0 (zeros SIZE) ;;
    match r with
    | None => Some None
    | Some tmp => n <- top SIZE tmp ;; Some (Some (mkBn t n tmp))
    end.

(** src/mln_bignum.c:188-216 the loop of mln_bignum_assign_oct *)
Fixpoint oct_loop (ds : list N) (i l j b : N) (tmp : list N) : option (option (list N)) :=
  match ds with
  | [] => Some (Some tmp)
  | c :: rest =>
      let top := if i mod 3 =? 2 then 51 else 55 in
      if (c <? 48) || (top <? c) then Some None
      else
        let v := c - 48 in
        let b := if i mod 3 =? 0 then N.land v 7
                 else if i mod 3 =? 1 then N.lor b (N.land (N.shiftl v 3) 56)
                 else N.lor b (N.land (N.shiftl v 6) 192) in
        if (i mod 3 =? 2) || (match rest with [] => true | _ => false end) then
          r <- put_byte tmp l j b ;; let '(tmp, l, j) := r in oct_loop rest (i + 1) l j b tmp
        else oct_loop rest (i + 1) l j b tmp
  end.

(** src/mln_bignum.c:176-219 mln_bignum_assign_oct *)
Definition assign_oct (t : bool) (s : list N) : option (option bn) :=
  if BITS / 3 <? N.of_nat (length s) then Some None
  else
    r <- oct_loop (rev s) 0 0 0 0 (zeros SIZE) ;;
    match r with
    | None => Some None
    | Some tmp => n <- top SIZE tmp ;; Some (Some (mkBn t n tmp))
    end.

(** src/mln_bignum.c:253-255, 261-263 add [v] to [t], [k] times. *)
Fixpoint add_times (k : nat) (t v : bn) : option bn :=
  match k with O => Some t | S k' => t <- bn_add t v ;; add_times k' t v end.

(** src/mln_bignum.c:249-250 the constant one. *)
Definition bn_one : bn := mkBn false 1 (1 :: zeros (SIZE - 1)).

(** src/mln_bignum.c:244-265 mln_bignum_dec_recursive *)
Fixpoint dec_recursive (rec loops : nat) (t : bn) : option bn :=
  match rec with
  | O => add_times loops bn_zero bn_one
  | S rec' => v <- dec_recursive rec' 10 bn_zero ;; add_times loops t v
  end.

(** src/mln_bignum.c:232-238 the loop of mln_bignum_assign_dec *)
Fixpoint dec_loop (ds : list N) (cnt : nat) (b : bn) : option (option bn) :=
  match ds with
  | [] => Some (Some b)
  | c :: rest =>
      if negb (is_digit c) then Some None
      else t <- dec_recursive cnt (N.to_nat (c - 48)) bn_zero ;; b <- bn_add b t ;; dec_loop rest (S cnt) b
  end.

(** src/mln_bignum.c:221-242 mln_bignum_assign_dec *)
Definition assign_dec (t : bool) (s : list N) : option (option bn) :=
  if BITS / 4 <? N.of_nat (length s) then Some None
  else
    r <- dec_loop (rev s) 0 bn_zero ;;
    match r with None => Some None | Some b => Some (Some (set_neg b t)) end.

(** src/mln_bignum.c:102-120 mln_bignum_assign for a NUL-terminated text [s]; [len] is its length. *)
Definition bn_assign (s : list N) : option (option bn) :=
  let t := nth 0 s 0 =? 45 in
  let s := if t then tl s else s in
  if nth 0 s 0 =? 48 then
    if nth 1 s 0 =? 120 then assign_hex t (skipn 2 s) else assign_oct t (skipn 1 s)
  else assign_dec t s.

(** src/mln_bignum.c:1250-1257 the digit loop of mln_bignum_tostring, least significant first.
    Digits are written into a buffer of [room] characters. *)
Fixpoint digits_loop (fuel : nat) (room : N) (dup : bn) : option (option (list N)) :=
  match fuel with
  | O => None
  | S fuel' =>
      c <- bn_compare dup bn_zero ;;
      if (c =? 0)%Z then Some (Some [])
      else
        r <- bn_div_word dup 10 ;;
        match r with
        | None => Some None
        | Some (rem, quo) =>
            if room =? 0 then None
            else
              x <- nth_error (dat rem) 0 ;;
              rest <- digits_loop fuel' (room - 1) quo ;;
              Some (option_map (cons ((x mod 256 + 48) mod 256)) rest)
        end
  end.

(** src/mln_bignum.c:1261-1265 reversal by swapping. *)
Fixpoint swap_loop (k i : nat) (buf : list N) : option (list N) :=
  match k with
  | O => Some buf
  | S k' =>
      a <- nth_error buf i ;; b <- nth_error buf (length buf - i - 1) ;;
      buf <- store buf i b ;; buf <- store buf (length buf - i - 1) a ;; swap_loop k' (S i) buf
  end.

(** src/mln_bignum.c:1236-1276 mln_bignum_tostring. The buffer has 64 characters per limb (at least one) and one more. The number of
    turns is bounded by ten digits per limb. *)
Definition bn_tostring (n : bn) : option (option (list N)) :=
  let size := N.max 1 (64 * N.of_nat (len n)) in
  r <- digits_loop (10 * len n + 1) (size + 1) n ;;
  match r with
  | None => Some None
  | Some ds =>
      let buf := ds ++ (if neg n then [45] else []) in
      buf <- swap_loop (Nat.div2 (length buf)) 0 buf ;;
      let buf := match buf with [] => [48] | _ => buf end in
      if N.of_nat (length buf) <=? size then Some (Some buf) else None
  end.

(** src/mln_bignum.c:1156-1171 mln_bignum_i2osp: the content of a buffer of [n] bytes. *)
Definition limb_bytes (x : N) : list N :=
  [N.land (N.shiftr x 24) 255; N.land (N.shiftr x 16) 255; N.land (N.shiftr x 8) 255; N.land x 255].
Definition bn_i2osp (b : bn) (n : nat) : option (list N) :=
  if neg b || (n <? 4 * len b)%nat then None
  else Some (repeat 0 (n - 4 * len b) ++ flat_map limb_bytes (rev (firstn (len b) (dat b)))).

(** src/mln_bignum.c:1180-1188 the loop of mln_bignum_os2ip; [bs] are the bytes from the last to the first. *)
Fixpoint os2ip_loop (bs : list N) (k : nat) (i : N) (data : list N) : option (list N * nat * N) :=
  match bs with
  | [] => Some (data, k, i)
  | c :: rest =>
      data <- or_at data (Some k) (N.shiftl c i) ;;
      if 24 <=? i then
        x <- nth_error data k ;; data <- store data k (mask32 x) ;; os2ip_loop rest (S k) 0 data
      else os2ip_loop rest k (i + 8) data
  end.

(** src/mln_bignum.c:1173-1192 mln_bignum_os2ip *)
Definition bn_os2ip (s : list N) : option (option bn) :=
  if (SIZE * 4 <? length s)%nat then Some None
  else
    r <- os2ip_loop (rev s) 0 0 (zeros SIZE) ;;
    let '(data, k, i) := r in Some (Some (mkBn false (if i =? 0 then k else S k) data)).

(** Model of the searching, slicing, trimming and comparing routines of src/mln_string.c on byte lists.
    Strings are modelled by their bytes; where the C code compares data pointers the pointer is a parameter. *)
Require Import List Arith NArith ZArith Lia Bool.
Require Import Verif.Base.
Import ListNotations.

(** ** KMP *)

(** src/mln_string.c:544-545 and 569-570: [while (q > 0 && pattern[q] != c) q = shift[q-1];].
    Reading outside [pattern] or an unwritten [shift] cell gives [None]; so does running out of fuel. *)
Fixpoint kmp_fall (fuel : nat) (p : list N) (shift : list nat) (c : N) (q : nat) : option nat :=
  match fuel with
  | O => None
  | S f =>
      if q =? 0 then Some 0
      else
        pq <- nth_error p q ;;
        if N.eqb pq c then Some q
        else q' <- nth_error shift (q - 1) ;; kmp_fall f p shift c q'
  end.

(** lines 544-547 / 569-572: one character. *)
Definition kmp_step (p : list N) (shift : list nat) (c : N) (q : nat) : option nat :=
  q1 <- kmp_fall (S q) p shift c q ;;
  pq <- nth_error p q1 ;;
  Some (if N.eqb pq c then S q1 else q1).

(** src/mln_string.c:561-576 compute_prefix_function. [shift] is modelled by the list of cells written so far;
    the array has [m] cells, so with [m = 0] the write [shift[0] = 0] is out of bounds. *)
Fixpoint prefix_loop (todo : list N) (p : list N) (k : nat) (shift : list nat) : option (list nat) :=
  match todo with
  | [] => Some shift
  | c :: t =>
      k' <- kmp_step p shift c k ;;
      prefix_loop t p k' (shift ++ [k'])
  end.
Definition compute_prefix (p : list N) : option (list nat) :=
  match p with
  | [] => None
  | _ :: t => prefix_loop t p 0 [0]
  end.

(** src/mln_string.c:536-559 kmp_string_match: [Some (Some pos)] = pointer &text[pos], [Some None] = NULL. *)
Fixpoint kmp_loop (todo : list N) (i : nat) (p : list N) (shift : list nat) (q : nat) : option (option nat) :=
  match todo with
  | [] => Some None
  | c :: t =>
      q' <- kmp_step p shift c q ;;
      if q' =? length p then Some (Some (i + 1 - length p))
      else kmp_loop t (S i) p shift q'
  end.
Definition kmp_match (text p : list N) : option (option nat) :=
  shift <- compute_prefix p ;; kmp_loop text 0 p shift 0.

(** ** Slice *)

(** src/mln_string.c:594-626 mln_string_slice_recursive on the bytes that remain, with [sep] the test
    [ascii[c] != 0]. The pieces returned are array[cnt-2], ... up to the terminating entry of length 0, which is
    dropped here (the array is handed out as "entries until len == 0"). [fuel] bounds the recursion. *)
Fixpoint span_while (f : N -> bool) (l : list N) : list N * list N :=
  match l with
  | [] => ([], [])
  | c :: t => if f c then let '(a, b) := span_while f t in (c :: a, b) else ([], l)
  end.
Fixpoint slice_rec (fuel : nat) (sep : N -> bool) (s : list N) : option (list (list N)) :=
  match fuel with
  | O => None
  | S f =>
      match snd (span_while sep s) with
      | [] => Some []
      | rest =>
          let '(piece, rest') := span_while (fun c => negb (sep c)) rest in
          r <- slice_rec f sep rest' ;;
          Some (piece :: r)
      end
  end.
(** src/mln_string.c:578-592 mln_string_slice: the separators are the bytes of a C string, so byte 0 never is one. *)
Definition is_sep (seps : list N) (c : N) : bool := existsb (N.eqb c) seps.
Definition slice (s : list N) (seps : list N) : option (list (list N)) :=
  slice_rec (S (length s)) (is_sep seps) s.

(** ** Trim, case, concatenation *)

(** src/mln_string.c:690-707 mln_string_trim: [i] skips the mask from the left, [j] from the right down to [i]. *)
Fixpoint trim_left (mask : N -> bool) (s : list N) : list N :=
  match s with [] => [] | c :: t => if mask c then trim_left mask t else s end.
Definition trim (s mask : list N) : list N :=
  let m := fun c => existsb (N.eqb c) mask in
  rev (trim_left m (rev (trim_left m s))).

(** src/mln_string.c:731-759 mln_string_upper / mln_string_lower via the 256-entry table (0 = leave unchanged). *)
Definition upper_tbl (c : N) : N := if (97 <=? c)%N && (c <=? 122)%N then (c - 32)%N else 0%N.
Definition lower_tbl (c : N) : N := if (65 <=? c)%N && (c <=? 90)%N then (c + 32)%N else 0%N.
Definition upper (s : list N) : list N := map (fun c => if N.eqb (upper_tbl c) 0 then c else upper_tbl c) s.
Definition lower (s : list N) : list N := map (fun c => if N.eqb (lower_tbl c) 0 then c else lower_tbl c) s.

(** src/mln_string.c:281-319 mln_string_concat: bytes of the result (NULL arguments are [None]). *)
Definition concat3 (s1 s2 sep : option (list N)) : list N :=
  (match s1 with
   | Some a => a ++ (match s2, sep with Some _, Some c => c | _, _ => [] end)
   | None => []
   end) ++ (match s2 with Some b => b | None => [] end).

(** ** Comparison *)

(** memcmp: any value with the sign of the first difference; -1/0/1 here. *)
Fixpoint memcmp (a b : list N) : Z :=
  match a, b with
  | x :: a', y :: b' => if N.eqb x y then memcmp a' b' else if N.ltb x y then (-1)%Z else 1%Z
  | _, _ => 0%Z
  end.

(** The 32-bit little-endian word at the head of a byte list. *)
Definition word (b0 b1 b2 b3 : N) : Z := Z.of_N (b0 + 256 * b1 + 65536 * b2 + 16777216 * b3).

(** conversion of an unsigned 32-bit difference to mln_s32_t (two's complement, as gcc and clang define it) *)
Definition to_s32 (z : Z) : Z := let r := (z mod 2^32)%Z in if (r <? 2^31)%Z then r else (r - 2^32)%Z.

(** src/mln_string.c:385-392: word-wise loop. Little-endian host. *)
Fixpoint wordcmp (a b : list N) : Z :=
  match a, b with
  | a0 :: a1 :: a2 :: a3 :: a', b0 :: b1 :: b2 :: b3 :: b' =>
      let res := to_s32 (word a0 a1 a2 a3 - word b0 b1 b2 b3) in
      if Z.eqb res 0 then wordcmp a' b' else res
  | _, _ => 0%Z
  end.

(** A string object: address of its data and its bytes. *)
Record mstr := mkS { s_addr : N; s_bytes : list N }.

(** src/mln_string.c:379-393 mln_string_strcmp. *)
Definition mstrcmp (s1 s2 : mstr) : Z :=
  let a := s_bytes s1 in let b := s_bytes s2 in
  if N.eqb (s_addr s1) (s_addr s2) then 0%Z
  else if length b <? length a then 1%Z
  else if length a <? length b then (-1)%Z
  else if (280 <? length a) || negb (length a mod 4 =? 0) then memcmp a b
  else wordcmp a b.

(** src/mln_string.c:364-377 mln_string_strseqcmp. *)
Definition mstrseqcmp (a b : list N) : Z :=
  if length b <? length a then
    (if length b =? 0 then 1%Z else let r := memcmp a b in if Z.eqb r 0 then 1%Z else r)
  else if length a <? length b then
    (if length a =? 0 then 1%Z else let r := memcmp a b in if Z.eqb r 0 then (-1)%Z else r)
  else if length a =? 0 then 0%Z else memcmp a b.

(** src/mln_string.c:413-429 mln_string_strncmp on distinct data addresses. *)
Definition mstrncmp (a b : list N) (n : nat) : Z :=
  if (length a <? n) || (length b <? n) then (-1)%Z
  else if (280 <? n) || negb (n mod 4 =? 0) then memcmp (firstn n a) (firstn n b)
  else wordcmp (firstn n a) (firstn n b).

(** ** strstr *)

(** A string view: a window of [v_len] bytes at [v_off] inside a NUL-terminated memory block [v_mem]. *)
Record view := mkV { v_mem : list N; v_off : nat; v_len : nat }.
Definition view_bytes (v : view) : list N := firstn (v_len v) (skipn (v_off v) (v_mem v)).
(** bytes up to the first NUL, as the C library sees them *)
Fixpoint cstr (l : list N) : list N :=
  match l with [] => [] | c :: t => if N.eqb c 0 then [] else c :: cstr t end.
Fixpoint prefixb (p l : list N) : bool :=
  match p, l with
  | [], _ => true
  | x :: p', y :: l' => N.eqb x y && prefixb p' l'
  | _, _ => false
  end.
(** ISO C strstr on NUL-terminated strings. *)
Fixpoint strstr_from (i : nat) (t p : list N) : option nat :=
  if prefixb p t then Some i
  else match t with [] => None | _ :: t' => strstr_from (S i) t' p end.
(** src/mln_string.c:477-481 mln_string_strstr on distinct data addresses: both lengths are ignored. *)
Definition mstrstr (text pat : view) : option nat :=
  strstr_from 0 (cstr (skipn (v_off text) (v_mem text))) (cstr (skipn (v_off pat) (v_mem pat))).

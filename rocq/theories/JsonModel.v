(** Model of the text reader and writer of src/mln_json.c. Texts are byte lists; a pointer into the text and the number of bytes left are one
    value, the list of bytes left. Lengths are ints in the reader: texts are taken to be shorter than 2^31 bytes. An object is the list of its
    members in the order in which mln_rbtree_iterate hands them out, which is the order of insertion (RbProps.v); how the tree search answers
    depends on the keys inserted before, and is the parameter [look]. Allocations succeed in the reader (malloc(0) too); in the writer
    [limit] is the largest block that realloc grants. A string value without a string is not modelled. *)
Require Import List Arith NArith ZArith Bool SpecFloat.
Require Import Verif.Base Verif.JsonNumModel.
Import ListNotations.
Open Scope N_scope.

(** include/mln_json.h:37-46 and 48-59 *)
Inductive json :=
| JNone | JObj (m : list (list N * json)) | JArr (l : list json) | JStr (s : list N) | JNum (d : dbl) | JTrue | JFalse | JNull.

(** include/mln_json.h:72-79; zero means no limit. *)
Record policy := mkP { p_depth : N; p_key : N; p_str : N; p_arr : N; p_obj : N }.
(** Without a policy. *)
Definition no_policy : policy := mkP 0 0 0 0 0.
(** [policy->x && n > policy->x] *)
Definition exceeds (limit n : N) : bool := negb (limit =? 0) && (limit <? n).

(** src/mln_json.c:884-891 mln_json_jumpoff_blank *)
Definition is_blank (c : N) : bool := (c =? 32) || (c =? 9) || (c =? 13) || (c =? 10).
Fixpoint skip (s : list N) : list N := match s with c :: t => if is_blank c then skip t else s | [] => [] end.

(** ** Strings *)
(** src/mln_json.c:574-585 the search for the closing quote: the bytes before it and those behind it. *)
Fixpoint scan (flag : bool) (s : list N) : option (list N * list N) :=
  match s with
  | [] => None
  | c :: t =>
      if negb flag && (c =? 92) then p <- scan true t ;; Some (c :: fst p, snd p)
      else if (c =? 34) && negb flag then Some ([], t)
      else p <- scan false t ;; Some (c :: fst p, snd p)
  end.

Definition u32 (x : N) : N := x mod 2 ^ 32.
(** src/mln_json.c:672-677 mln_json_char2int, converted to unsigned: char is signed. *)
Definition char2int (c : N) : N :=
  if is_digit c then c - 48
  else if (97 <=? c) && (c <=? 102) then c - 87
  else if (65 <=? c) && (c <=? 70) then c - 55
  else if c <? 128 then c else 2 ^ 32 - 256 + c.
(** src/mln_json.c:723-730 *)
Definition hex4 (a b c d : N) : N :=
  let h := char2int a in
  let h := N.lor (u32 (N.shiftl h 4)) (char2int b) in
  let h := N.lor (u32 (N.shiftl h 4)) (char2int c) in
  N.lor (u32 (N.shiftl h 4)) (char2int d).

(** src/mln_json.c:645-670 mln_json_encode_utf8: the bytes written (the stores keep the low 8 bits). *)
Definition utf8 (u : N) : list N :=
  let lo x := N.land x 255 in
  if u <=? 127 then [lo (N.land u 255)]
  else if u <=? 2047 then [lo (N.lor 192 (N.land (N.shiftr u 6) 255)); lo (N.lor 128 (N.land u 63))]
  else if u <=? 65535 then
    [lo (N.lor 224 (N.land (N.shiftr u 12) 255)); lo (N.lor 128 (N.land (N.shiftr u 6) 63)); lo (N.lor 128 (N.land u 63))]
  else
    [lo (N.lor 240 (N.land (N.shiftr u 18) 255)); lo (N.lor 128 (N.land (N.shiftr u 12) 63)); lo (N.lor 128 (N.land (N.shiftr u 6) 63));
     lo (N.lor 128 (N.land u 63))].

(** src/mln_json.c:685-722 the escapes of one byte. *)
Definition escape (c : N) : option N :=
  if c =? 34 then Some 34 else if c =? 92 then Some 92 else if c =? 47 then Some 47
  else if c =? 98 then Some 8 else if c =? 102 then Some 12 else if c =? 110 then Some 10
  else if c =? 114 then Some 13 else if c =? 116 then Some 9 else None.

(** src/mln_json.c:679-745 mln_json_get_char: [(c, hex, rest)]; [None] is -1. *)
Definition get_char (hex : N) (s : list N) : option (N * N * list N) :=
  match s with
  | [] => None
  | c :: t =>
      if c =? 92 then
        match t with
        | [] => None
        | e :: t' =>
            match escape e with
            | Some x => Some (x, hex, t')
            | None =>
                if e =? 117 then
                  match t' with
                  | a :: b :: c :: d :: r => Some (0, hex4 a b c d, r)
                  | _ => None
                  end
                else None
            end
        end
      else Some (c, hex, t)
  end.

(** src/mln_json.c:619-643 mln_json_parse_string_fetch: [out] holds the bytes written to a block of [cap] bytes, the last one first.
    Writing more bytes than the block has is [Overrun]. *)
Fixpoint fetch_loop (fuel : nat) (cap : nat) (hex : N) (out : list N) (s : list N) : res (list N) :=
  match fuel with
  | O => Stuck
  | S f =>
      match s with
      | [] => Ok (rev out)
      | _ =>
          match get_char hex s with
          | None => Bad 0
          | Some (c, hex, r) =>
              let out := rev (if c =? 0 then utf8 hex else [c]) ++ out in
              if (cap <? length out)%nat then Overrun else fetch_loop f cap hex out r
          end
      end
  end.
Definition fetch (s : list N) : res (list N) := fetch_loop (S (length s)) (length s) 0 [] s.

(** src/mln_json.c:560-617 mln_json_parse_string, behind the opening quote. *)
Definition parse_string (p : policy) (obj_key : bool) (s : list N) : res (list N * list N) :=
  match scan false s with
  | None => Bad 0
  | Some (raw, rest) =>
      b <~ fetch raw ;;
      let n := N.of_nat (length b) in
      if obj_key then (if exceeds (p_key p) n then Bad 2 else Ok (b, rest))
      else if exceeds (p_str p) n then Bad 3 else Ok (b, rest)
  end.

(** strncasecmp of src/mln_json.c:844, 860 and 876 against a word in lower case, with the length test before it. *)
Definition lower_byte (c : N) : N := if (65 <=? c) && (c <=? 90) then c + 32 else c.
Fixpoint word (w s : list N) : option (list N) :=
  match w, s with
  | [], _ => Some s
  | a :: w', c :: t => if lower_byte c =? a then word w' t else None
  | _ :: _, [] => None
  end.
(** src/mln_json.c:836-882 mln_json_parse_true, mln_json_parse_false, mln_json_parse_null in the order of 374-381. *)
Definition parse_word (s : list N) : res (json * list N) :=
  match word [116; 114; 117; 101] s with
  | Some r => Ok (JTrue, r)
  | None =>
      match word [102; 97; 108; 115; 101] s with
      | Some r => Ok (JFalse, r)
      | None => match word [110; 117; 108; 108] s with Some r => Ok (JNull, r) | None => Bad 0 end
      end
  end.

(** ** Values *)
Section Read.
(** mln_rbtree_inline_search in a tree into which the given keys were inserted in this order: the number of the member found. *)
Variable look : list (list N) -> list N -> option nat.
Variable p : policy.
(** Whether the byte behind the text may be read, that is, whether the text is terminated by a null byte. *)
Variable term : bool.

(** src/mln_json.c:91-124 __mln_json_obj_update *)
Definition obj_update (m : list (list N * json)) (k : list N) (v : json) : list (list N * json) :=
  match look (map fst m) k with Some i => upd m i (k, v) | None => m ++ [(k, v)] end.

(** src/mln_json.c:349-382 mln_json_parse_json, 384-490 mln_json_parse_obj from [again], 492-558 mln_json_parse_array from [again].
    The answer is the value and the text left; the C functions answer the number of bytes left, and the value through a pointer. *)
Fixpoint parse_json (fuel : nat) (depth : N) (obj_key : bool) (s : list N) : res (json * list N) :=
  match fuel with
  | O => Stuck
  | S f =>
      match skip s with
      | [] => Ok (JNone, [])
      | c :: t =>
          if c =? 123 then
            (* lines 391-402 *)
            match t with
            | [] => Bad 0
            | _ => if exceeds (p_depth p) (depth + 1) then Bad 1 else parse_obj f depth [] t
            end
          else if c =? 91 then
            (* lines 501-513 *)
            match t with
            | [] => Bad 0
            | _ => if exceeds (p_depth p) (depth + 1) then Bad 1 else parse_arr f depth [] t
            end
          else if c =? 34 then
            match t with
            | [] => Bad 0
            | _ => r <~ parse_string p obj_key t ;; Ok (JStr (fst r), snd r)
            end
          else if is_digit c || (c =? 45) then
            r <~ parse_digit (c :: t) ;; Ok (JNum (fst r), snd r)
          else parse_word (c :: t)
      end
  end
with parse_obj (fuel : nat) (depth : N) (m : list (list N * json)) (s : list N) : res (json * list N) :=
  match fuel with
  | O => Stuck
  | S f =>
      match skip s with
      | [] => if term then Bad 0 else Overread
      | c :: t =>
          if c =? 125 then Ok (JObj m, skip t)
          else
            r <~ parse_json f (depth + 1) true (c :: t) ;;
            match r with
            | (JStr k, (_ :: _) as s1) =>
                match skip s1 with
                | c1 :: ((_ :: _) as t1) =>
                    if c1 =? 58 then
                      r2 <~ parse_json f (depth + 1) false t1 ;;
                      let '(v, s2) := r2 in
                      match skip s2 with
                      | [] => Bad 0
                      | c2 :: t2 =>
                          let m := obj_update m k v in
                          if exceeds (p_obj p) (N.of_nat (length m)) then Bad 5
                          else if c2 =? 44 then match t2 with [] => Bad 0 | _ => parse_obj f depth m t2 end
                          else if c2 =? 125 then Ok (JObj m, skip t2)
                          else Bad 0
                      end
                    else Bad 0
                | _ => Bad 0
                end
            | _ => Bad 0
            end
      end
  end
with parse_arr (fuel : nat) (depth : N) (l : list json) (s : list N) : res (json * list N) :=
  match fuel with
  | O => Stuck
  | S f =>
      match s with
      | [] => Overread
      | c :: _ =>
          r <~ (if c =? 93 then Ok (JNone, s) else parse_json f (depth + 1) false s) ;;
          let '(v, s1) := r in
          match s1 with
          | [] => Bad 0
          | _ =>
              let l := l ++ [v] in
              if exceeds (p_arr p) (N.of_nat (length l)) then Bad 4
              else match skip s1 with
                   | [] => Bad 0
                   | c1 :: t1 =>
                       if c1 =? 44 then match t1 with [] => Bad 0 | _ => parse_arr f depth l t1 end
                       else if c1 =? 93 then Ok (JArr l, skip t1)
                       else Bad 0
                   end
          end
      end
  end.

(** src/mln_json.c:330-347 mln_json_decode *)
Definition decode (s : list N) : res json :=
  r <~ parse_json (2 * length s + 2) 0 false s ;;
  match r with
  | (JObj m, []) => Ok (JObj m)
  | (JArr l, []) => Ok (JArr l)
  | _ => Bad 0
  end.
End Read.

(** ** Writing *)
(** The block: its size and the bytes before [off]. *)
Record buf := mkB { b_size : N; b_data : list N }.
(** 0, -1, a store behind the block, or an undefined conversion. *)
Inductive wres := WOk (b : buf) | WFail (b : buf) | WOver | WArith.
Definition wbind (r : wres) (f : buf -> wres) : wres := match r with WOk b => f b | _ => r end.
Notation "b <! e1 ;; e2" := (wbind e1 (fun b => e2)) (at level 61, e1 at next level, right associativity).

Section Write.
Variable limit : N.

(** src/mln_json.c:920-933 mln_json_write_byte. No size reaches 2^63, so doubling does not wrap. *)
Definition write (s : list N) (b : buf) : wres :=
  let n := N.of_nat (length (b_data b) + length s) in
  let put size := if size <? n then WOver else WOk (mkB size (b_data b ++ s)) in
  if b_size b <? n then (if limit <? 2 * b_size b then WFail b else put (2 * b_size b)) else put (b_size b).
(** src/mln_json.c:935-945 mln_json_write_back of one byte, guarded by [save < *off]. *)
Definition write_back (save : nat) (b : buf) : buf :=
  if (save <? length (b_data b))%nat then mkB (b_size b) (removelast (b_data b)) else b.

(** src/mln_json.c:997-1004 *)
Fixpoint write_chars (s : list N) (b : buf) : wres :=
  match s with
  | [] => WOk b
  | c :: t =>
      b <! (if (c =? 34) || (c =? 92) then write [92] b else WOk b) ;;
      b <! write [c] b ;;
      write_chars t b
  end.
(** src/mln_json.c:989-1008 *)
Definition write_str (s : list N) (b : buf) : wres := b <! write [34] b ;; b <! write_chars s b ;; write [34] b.

(** src/mln_json.c:947-1039 mln_json_write_content, with 1041-1058 for the members: the answer of mln_rbtree_iterate is not looked at. *)
Fixpoint write_content (j : json) (b : buf) : wres :=
  match j with
  | JObj m =>
      b <! write [123] b ;;
      let save := length (b_data b) in
      let r := (fix members m b :=
                  match m with
                  | [] => WOk b
                  | (k, v) :: t =>
                      b <! write_str k b ;; b <! write [58] b ;; b <! write_content v b ;; b <! write [44] b ;; members t b
                  end) m b in
      match r with
      | WOk b | WFail b => write [125] (write_back save b)
      | WOver => WOver
      | WArith => WArith
      end
  | JArr l =>
      b <! write [91] b ;;
      let save := length (b_data b) in
      b <! (fix elements l b :=
              match l with
              | [] => WOk b
              | v :: t => b <! write_content v b ;; b <! write [44] b ;; elements t b
              end) l b ;;
      write [93] (write_back save b)
  | JStr s => write_str s b
  | JNum d => match print_num d with Some t => write t b | None => WArith end
  | JTrue => write [116; 114; 117; 101] b
  | JFalse => write [102; 97; 108; 115; 101] b
  | JNull => write [110; 117; 108; 108] b
  | JNone => WOk b
  end.

(** src/mln_json.c:894-912 mln_json_encode *)
Definition encode (j : json) : res (list N) :=
  match write_content j (mkB 512 []) with
  | WOk b => Ok (b_data b)
  | WFail _ => Bad 0
  | WOver => Overrun
  | WArith => Arith
  end.
End Write.

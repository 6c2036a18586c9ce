(** Model of the heap pools of src/mln_alloc.c (pool->mem == NULL) for x86_64, where sizeof(mln_alloc_blk_t) = 56 and
    sizeof(mln_alloc_chunk_t) = 88. A pool takes chunks from malloc or calloc, or from its parent; the answer of that call is part of each
    step. Addresses and sizes are numbers below 2^64. The headers of chunks and blocks are kept in maps from their addresses; that no
    client data lies on them is a theorem. Chains are lists (ChainModel.v has the links). The bit in_used of a block is never read. *)
Require Import List Arith NArith Bool.
Require Import Verif.Base.
Import ListNotations.
Open Scope N_scope.

Definition blk_hdr : N := 56.
Definition chunk_hdr : N := 88.
(** include/mln_alloc.h:28 M_ALLOC_MGR_LEN, 29 M_ALLOC_BLK_NUM, 30 M_ALLOC_CHUNK_COUNT *)
Definition mgr_len : nat := 35.
Definition blk_num : nat := 4.
Definition chunk_count : N := 1023.

(** ** Size classes *)
(** src/mln_alloc.c:188-197 the size of the even entry [i]: the bits below [i/2 + 4], plus one. *)
Definition even_size (i : nat) : N := fold_left (fun a j => N.lor a (N.shiftl 1 (N.of_nat j))) (seq 0 (i / 2 + 4)) 0 + 1.
(** src/mln_alloc.c:184-206 mln_alloc_mgr_table_init: the odd entries lie half way. *)
Definition class_size (i : nat) : N :=
  if Nat.even i then even_size i else N.shiftr (even_size (i + 1) + even_size (i - 1)) 1.
(** src/mln_alloc.c:369-393 mln_alloc_get_mgr_by_size; bsr is the binary logarithm. *)
Definition class_of (size : N) : option nat :=
  if class_size 34 <? size then None
  else if size <=? class_size 0 then Some 0%nat
  else
    let off := (N.to_nat (N.log2 size) - 4)%nat in
    let off := (off * 2)%nat in
    if size <=? class_size off then Some off
    else if size <=? class_size (off + 1) then Some (off + 1)%nat
    else Some (off + 2)%nat.

(** ** Pools *)
(** [n = (x + 3) >> 2; n << 2] *)
Definition align4 (x : N) : N := N.shiftl (N.shiftr ((x + 3) mod 2 ^ 64) 2) 2.

(** include/mln_alloc.h:50-60 *)
Record blk := mkBlk { b_chunk : N; b_size : N; b_large : bool }.
(** include/mln_alloc.h:62-70; [c_mgr] is [None] for the chunk of a large block. *)
Record chunk := mkCh { c_refer : N; c_count : N; c_mgr : option nat; c_blks : list N; c_size : N }.
(** include/mln_alloc.h:72-80 without the size, which is [class_size] of the position. *)
Record mgr := mkMgr { m_free : list N; m_used : list N; m_chunks : list N }.
(** include/mln_alloc.h:98-118, and the bytes of the memory that belongs to clients. *)
Record pool := mkPool {
  capacity : N; in_used : N; tbl : list mgr; large : list N;
  blks : N -> option blk; chs : N -> option chunk; mem : N -> N }.

Definition set (A : Type) (f : N -> option A) (a : N) (x : option A) : N -> option A := fun b => if b =? a then x else f b.
Arguments set {A}.
Definition set_tbl (p : pool) (t : list mgr) : pool := mkPool (capacity p) (in_used p) t (large p) (blks p) (chs p) (mem p).
Definition set_mgr (p : pool) (i : nat) (m : mgr) : pool := set_tbl p (upd (tbl p) i m).
Definition set_ch (p : pool) (c : N) (x : option chunk) : pool :=
  mkPool (capacity p) (in_used p) (tbl p) (large p) (blks p) (set (chs p) c x) (mem p).
Definition set_blk (p : pool) (b : N) (x : option blk) : pool :=
  mkPool (capacity p) (in_used p) (tbl p) (large p) (set (blks p) b x) (chs p) (mem p).
Definition set_large (p : pool) (l : list N) : pool := mkPool (capacity p) (in_used p) (tbl p) l (blks p) (chs p) (mem p).
Definition set_used (p : pool) (n : N) : pool := mkPool (capacity p) n (tbl p) (large p) (blks p) (chs p) (mem p).
Definition set_mem (p : pool) (f : N -> N) : pool := mkPool (capacity p) (in_used p) (tbl p) (large p) (blks p) (chs p) f.

(** src/mln_alloc.c:146-182 mln_alloc_init *)
Definition pool_new (cap : N) (f : N -> N) : pool :=
  mkPool cap 0 (repeat (mkMgr [] [] []) mgr_len) [] (fun _ => None) (fun _ => None) f.

(** include/mln_utils.h:124-142 taking a node that is in the chain out of it. *)
Fixpoint chain_del (x : N) (l : list N) : option (list N) :=
  match l with
  | [] => None
  | y :: t => if y =? x then Some t else t' <- chain_del x t ;; Some (y :: t')
  end.
Fixpoint chain_del_all (xs l : list N) : option (list N) :=
  match xs with [] => Some l | x :: t => l' <- chain_del x l ;; chain_del_all t l' end.

(** What a call does that can be seen from outside: the pointer answered; the number of bytes asked from below and the answer; the
    chunk given back. *)
Record out := mkOut { o_ptr : option N; o_ask : option (N * option N); o_back : option N }.

(** src/mln_alloc.c:270-275 and 312-318: the capacity test; [None] when there is not enough left. *)
Definition reserve (p : pool) (n : N) : option pool :=
  if capacity p =? 0 then Some p
  else if capacity p <? (n + in_used p) mod 2 ^ 64 then None
  else Some (set_used p ((n + in_used p) mod 2 ^ 64)).
(** src/mln_alloc.c:473-476 and 504-507 *)
Definition release (p : pool) (n : N) : pool :=
  if capacity p =? 0 then p else set_used p ((in_used p + (2 ^ 64 - n)) mod 2 ^ 64).

(** src/mln_alloc.c:266-303 a large block. *)
Definition large_m (p : pool) (size : N) (ans : N -> option N) : pool * out :=
  let size := align4 ((size + blk_hdr + chunk_hdr) mod 2 ^ 64) in
  match reserve p size with
  | None => (p, mkOut None None None)
  | Some p =>
      match ans size with
      | None => (p, mkOut None (Some (size, None)) None)
      | Some a =>
          let p := set_large p (large p ++ [a]) in
          let p := set_ch p a (Some (mkCh 1 0 None [a + chunk_hdr] size)) in
          let p := set_blk p (a + chunk_hdr) (Some (mkBlk a ((size + (2 ^ 64 - (chunk_hdr + blk_hdr))) mod 2 ^ 64) true)) in
          (p, mkOut (Some (a + chunk_hdr + blk_hdr)) (Some (size, Some a)) None)
      end
  end.

(** src/mln_alloc.c:306-307 the distance of two blocks of a chunk. *)
Definition blk_step (i : nat) : N := align4 (blk_hdr + class_size i).
(** src/mln_alloc.c:309-310 *)
Definition chunk_size (i : nat) : N := align4 (chunk_hdr + N.of_nat blk_num * blk_step i).
(** src/mln_alloc.c:344-355 the blocks of the chunk at [a]. *)
Definition blocks (a : N) (i : nat) : list N := map (fun n => a + chunk_hdr + N.of_nat n * blk_step i) (seq 0 blk_num).
(** src/mln_alloc.c:339-356 *)
Definition add_chunk (p : pool) (i : nat) (m : mgr) (a : N) : pool :=
  let p := set_mgr p i (mkMgr (m_free m ++ blocks a i) (m_used m) (m_chunks m ++ [a])) in
  let p := set_ch p a (Some (mkCh 0 0 (Some i) (blocks a i) (chunk_size i))) in
  fold_left (fun p b => set_blk p b (Some (mkBlk a (class_size i) false))) (blocks a i) p.

(** src/mln_alloc.c:359-365 from [out]. *)
Definition take (p : pool) (i : nat) (o : option N -> out) : option (pool * out) :=
  m <- nth_error (tbl p) i ;;
  match rev (m_free m) with
  | [] => None
  | b :: _ =>
      free <- chain_del b (m_free m) ;;
      let p := set_mgr p i (mkMgr free (m_used m ++ [b]) (m_chunks m)) in
      k <- blks p b ;;
      ch <- chs p (b_chunk k) ;;
      let p := set_ch p (b_chunk k) (Some (mkCh (c_refer ch + 1) (c_count ch) (c_mgr ch) (c_blks ch) (c_size ch))) in
      Some (p, o (Some (b + blk_hdr)))
  end.
(** src/mln_alloc.c:333-338 from [oom]: the first class from [i] on with a free block. *)
Definition oom (p : pool) (i : nat) (o : option N -> out) : option (pool * out) :=
  match find (fun j => match nth_error (tbl p) j with Some m => match m_free m with [] => false | _ => true end | None => false end)
             (seq i (mgr_len - i)) with
  | Some j => take p j o
  | None => Some (p, o None)
  end.
(** src/mln_alloc.c:249-367 mln_alloc_m; [ans] is what malloc, calloc or the parent answers at this time to a request for so many bytes. A failure
    of the lock of a parent in shared memory (which skips the search of larger classes) is not modelled. *)
Definition alloc_m (p : pool) (size : N) (ans : N -> option N) : option (pool * out) :=
  match class_of size with
  | None => Some (large_m p size ans)
  | Some i =>
      m <- nth_error (tbl p) i ;;
      match m_free m with
      | _ :: _ => take p i (fun x => mkOut x None None)
      | [] =>
          let n := chunk_size i in
          match reserve p n with
          | None => oom p i (fun x => mkOut x None None)
          | Some p =>
              let o x := mkOut x (Some (n, ans n)) None in
              match ans n with
              | None => oom p i o
              | Some a => take (add_chunk p i m a) i o
              end
          end
      end
  end.

(** memset and memcpy on the bytes of clients. *)
Definition fill (f : N -> N) (a n v : N) : N -> N := fun x => if (a <=? x) && (x <? a + n) then v else f x.
Definition copy (f : N -> N) (d s n : N) : N -> N := fun x => if (d <=? x) && (x <? d + n) then f (s + (x - d)) else f x.

(** src/mln_alloc.c:395-405 mln_alloc_c *)
Definition alloc_c (p : pool) (size : N) (ans : N -> option N) : option (pool * out) :=
  r <- alloc_m p size ans ;;
  let '(p, o) := r in
  match o_ptr o with None => Some (p, o) | Some q => Some (set_mem p (fill (mem p) q size 0), o) end.

(** src/mln_alloc.c:479-508 a block of a size class; [None] when it is not a used block of the pool. *)
Definition small_free (p : pool) (b : N) (k : blk) (ch : chunk) : option (pool * option N) :=
  i <- c_mgr ch ;;
  m <- nth_error (tbl p) i ;;
  used <- chain_del b (m_used m) ;;
  let free := m_free m ++ [b] in
  if c_refer ch =? 0 then None
  else
    let refer := c_refer ch - 1 in
    let count := if refer =? 0 then c_count ch + 1 else c_count ch in
    if (refer =? 0) && (chunk_count <? count) then
      free <- chain_del_all (c_blks ch) free ;;
      chunks <- chain_del (b_chunk k) (m_chunks m) ;;
      let p := set_mgr p i (mkMgr free used chunks) in
      let p := set_ch p (b_chunk k) None in
      let p := fold_left (fun p b => set_blk p b None) (c_blks ch) p in
      Some (release p (c_size ch), Some (b_chunk k))
    else
      let p := set_mgr p i (mkMgr free used (m_chunks m)) in
      Some (set_ch p (b_chunk k) (Some (mkCh refer count (c_mgr ch) (c_blks ch) (c_size ch))), None).
(** src/mln_alloc.c:431-510 mln_alloc_free of a pointer that is not NULL. *)
Definition alloc_free (p : pool) (q : N) : option (pool * option N) :=
  if q <? blk_hdr then None
  else
    let b := q - blk_hdr in
    k <- blks p b ;;
    ch <- chs p (b_chunk k) ;;
    if b_large k then
      l <- chain_del (b_chunk k) (large p) ;;
      let p := set_blk (set_ch (set_large p l) (b_chunk k) None) b None in
      Some (release p (c_size ch), Some (b_chunk k))
    else small_free p b k ch.

(** src/mln_alloc.c:407-429 mln_alloc_re of a block of the same pool. *)
Definition alloc_re (p : pool) (q size : N) (ans : N -> option N) : option (pool * out) :=
  if size =? 0 then r <- alloc_free p q ;; Some (fst r, mkOut None None (snd r))
  else if q <? blk_hdr then None
  else
    k <- blks p (q - blk_hdr) ;;
    if size <=? b_size k then Some (p, mkOut (Some q) None None)
    else
      r <- alloc_m p size ans ;;
      let '(p, o) := r in
      match o_ptr o with
      | None => Some (p, o)
      | Some q' =>
          let p := set_mem p (copy (mem p) q' q (b_size k)) in
          s <- alloc_free p q ;;
          Some (fst s, mkOut (Some q') (o_ask o) (snd s))
      end.

(** src/mln_alloc.c:407-429 mln_alloc_re into another pool [p2] of a block of [p1], for a size that is not 0: the answer is the two pools, the new block and the number of bytes
    copied into it. *)
Definition alloc_re_other (p1 p2 : pool) (q size : N) (ans : N -> option N) : option (pool * pool * out * N) :=
  if q <? blk_hdr then None
  else
    k <- blks p1 (q - blk_hdr) ;;
    r <- alloc_m p2 size ans ;;
    let '(p2, o) := r in
    match o_ptr o with
    | None => Some (p1, p2, o, 0)
    | Some _ => s <- alloc_free p1 q ;; Some (fst s, p2, mkOut (o_ptr o) (o_ask o) (snd s), b_size k)
    end.

(** The calls of a program, and its stores into its blocks. *)
Inductive op := AAlloc (size : N) (ans : N -> option N) | AZero (size : N) (ans : N -> option N) | ARe (q size : N) (ans : N -> option N) | AFree (q : N)
  | AStore (a v : N).
Definition p_step (p : pool) (o : op) : option (pool * out) :=
  match o with
  | AAlloc size ans => alloc_m p size ans
  | AZero size ans => alloc_c p size ans
  | ARe q size ans => alloc_re p q size ans
  | AFree q => r <- alloc_free p q ;; Some (fst r, mkOut None None (snd r))
  | AStore a v => Some (set_mem p (fill (mem p) a 1 v), mkOut None None None)
  end.
Fixpoint p_run (p : pool) (ops : list op) : option (pool * list out) :=
  match ops with
  | [] => Some (p, [])
  | o :: ops => r <- p_step p o ;; s <- p_run (fst r) ops ;; Some (fst s, snd r :: snd s)
  end.
(** src/mln_alloc.c:686-690 mln_alloc_available_capacity *)
Definition available (p : pool) : N := if capacity p =? 0 then 2 ^ 64 - 1 else capacity p - in_used p.
(** src/mln_alloc.c:216-231 the chunks that mln_alloc_destroy gives back, in this order. *)
Definition destroyed (p : pool) : list N := concat (map m_chunks (tbl p)) ++ large p.

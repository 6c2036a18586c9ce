(** Model of the shared memory pools of src/mln_alloc.c (pool->mem != NULL) for x86_64, where sizeof(mln_alloc_t) = 2048,
    sizeof(mln_alloc_shm_t) = 4144 and sizeof(mln_alloc_blk_t) = 56. Addresses are counted from pool->mem. The headers of segments and blocks
    are kept beside the bytes of clients; that no client data lies on them is a theorem. Locking is left to the caller in the code as well.
    [None] stands for undefined behaviour. *)
Require Import List Arith NArith Bool.
Require Import Verif.Base Verif.AllocModel.
Import ListNotations.
Open Scope N_scope.

Definition pool_hdr : N := 2048.
Definition seg_hdr : N := 4144.
(** include/mln_alloc.h:32 M_ALLOC_SHM_BITMAP_LEN, 33 M_ALLOC_SHM_BIT_SIZE, 34 M_ALLOC_SHM_LARGE_SIZE, 35 M_ALLOC_SHM_DEFAULT_SIZE *)
Definition map_len : nat := 4096.
Definition unit : N := 64.
Definition large_size : N := (1 * 1024 + 512) * 1024.
Definition default_size : N := 2 * 1024 * 1024.

(** include/mln_alloc.h:82-96; the list of the pool has the links. *)
Record seg := mkSeg { g_addr : N; g_size : N; g_nfree : N; g_base : N; g_large : bool; g_map : list N }.
(** include/mln_alloc.h:50-60 *)
Record sblk := mkSblk { k_seg : N; k_size : N; k_pad : N; k_large : bool }.
Record shm := mkShm { sh_cap : N; sh_segs : list seg; sh_blks : N -> option sblk; sh_mem : N -> N }.

(** src/mln_alloc.c:83-144 mln_alloc_shm_init: NULL when the capacity is below the default size of a segment and 1024 bytes. [f] is what
    the mapping holds. *)
Definition shm_init (cap : N) (f : N -> N) : option shm :=
  if cap <? default_size + 1024 then None else Some (mkShm cap [] (fun _ => None) f).

(** The difference of two pointers, converted to mln_size_t. *)
Definition diff (a b : N) : N := (a + 2 ^ 64 - b) mod 2 ^ 64.
(** src/mln_alloc.c:28-64 mln_alloc_shm_new: the first gap from [p] on that is long enough; the list with the new segment, and its place there. *)
Fixpoint place (cap size : N) (mk : N -> seg) (p : N) (l : list seg) : option (list seg * nat) :=
  match l with
  | [] => if diff cap p <? size then None else Some ([mk p], 0%nat)
  | t :: l' =>
      if size <=? diff (g_addr t) p then Some (mk p :: t :: l', 0%nat)
      else r <- place cap size mk (g_addr t + g_size t) l' ;; Some (t :: fst r, S (snd r))
  end.
(** src/mln_alloc.c:665-673 and 635-643: [n] bits from bit [i] of byte [b] on, towards the lower bits and then the next byte. *)
Fixpoint mark (f : N -> N -> N) (n : nat) (m : list N) (b i : nat) : option (list N) :=
  match n with
  | O => Some m
  | S n =>
      c <- nth_error m b ;;
      let m := upd m b (f c (N.shiftl 1 (N.of_nat i))) in
      match i with O => mark f n m (S b) 7%nat | S i => mark f n m b i end
  end.
(** src/mln_alloc.c:42-48 and 66-78: a segment of blocks, with the units of its header marked. *)
Definition hdr_units : N := (seg_hdr + unit - 1) / unit.
Definition small_seg (a : N) : seg :=
  let nfree := default_size / unit - hdr_units in
  mkSeg a default_size nfree nfree false
    (match mark N.lor (N.to_nat hdr_units) (repeat 0 map_len) 0 7 with Some m => m | None => [] end).
(** The segment of a large block; its bitmap is not written (src/mln_alloc.c:66), and nfree is 0 (544). *)
Definition large_seg (size a : N) : seg := mkSeg a size 0 1 true [].

(** src/mln_alloc.c:573 and 619, 662 *)
Definition units (size : N) : N := (size + blk_hdr + unit - 1) / unit.

(** src/mln_alloc.c:589-604 the bits of one byte. The state is the place where the run began and the number of bits missing; the loop ends when
    no bit is missing. *)
Fixpoint scan_bits (c : N) (b : nat) (n : N) (is : list nat) (st : option (nat * nat * N)) : option (nat * nat * N) :=
  match is with
  | [] => st
  | i :: is =>
      if N.testbit c (N.of_nat i) then scan_bits c b n is None
      else
        let '(s, j) := match st with None => ((b, i), n) | Some x => x end in
        let j := j - 1 in
        if j =? 0 then Some (s, j) else scan_bits c b n is (Some (s, j))
  end.
(** src/mln_alloc.c:578-612 *)
Fixpoint scan (n : N) (m : list N) (b : nat) (st : option (nat * nat * N)) : option (nat * nat) :=
  match m with
  | [] => None
  | c :: m =>
      if c =? 255 then scan n m (S b) None
      else
        match scan_bits c b n [7; 6; 5; 4; 3; 2; 1; 0]%nat st with
        | Some (s, 0) => Some s
        | st => scan n m (S b) st
        end
  end.
(** src/mln_alloc.c:568-613 mln_alloc_shm_allowed: byte and bit where a run of free units begins. *)
Definition allowed (s : seg) (size : N) : option (nat * nat) :=
  if g_nfree s <? units size then None else scan (units size) (g_map s) 0 None.
(** src/mln_alloc.c:527-531 the first segment with such a run. *)
Fixpoint find_seg (l : list seg) (size : N) : option (nat * (nat * nat)) :=
  match l with
  | [] => None
  | s :: l => match allowed s size with Some x => Some (0%nat, x) | None => r <- find_seg l size ;; Some (S (fst r), snd r) end
  end.

Definition set_segs (p : shm) (l : list seg) : shm := mkShm (sh_cap p) l (sh_blks p) (sh_mem p).
Definition set_sblk (p : shm) (b : N) (x : option sblk) : shm := mkShm (sh_cap p) (sh_segs p) (set (sh_blks p) b x) (sh_mem p).
Definition set_smem (p : shm) (f : N -> N) : shm := mkShm (sh_cap p) (sh_segs p) (sh_blks p) f.

(** src/mln_alloc.c:615-646 mln_alloc_shm_set_bitmap on the segment at place [i] of the list; nfree is at least the number of units. *)
Definition carve (p : shm) (i : nat) (x : nat * nat) (size : N) : option (shm * N) :=
  s <- nth_error (sh_segs p) i ;;
  let '(B, b) := x in
  let addr := g_addr s + (N.of_nat B * 8 + (7 - N.of_nat b)) * unit in
  let pad := N.lor (N.shiftl (N.land (N.of_nat B) 65535) 8) (N.land (N.of_nat b) 255) in
  m <- mark N.lor (N.to_nat (units size)) (g_map s) B b ;;
  let s' := mkSeg (g_addr s) (g_size s) (g_nfree s - units size) (g_base s) (g_large s) m in
  Some (set_sblk (set_segs p (upd (sh_segs p) i s')) addr (Some (mkSblk (g_addr s) size (pad mod 2 ^ 30) false)), addr + blk_hdr).
(** src/mln_alloc.c:537-554 mln_alloc_shm_large_m *)
Definition shm_large (p : shm) (size : N) : option (shm * option N) :=
  let n := (size + seg_hdr + blk_hdr) mod 2 ^ 64 in
  match place (sh_cap p) n (large_seg n) pool_hdr (sh_segs p) with
  | None => Some (p, None)
  | Some (l, i) =>
      s <- nth_error l i ;;
      Some (set_sblk (set_segs p l) (g_addr s + seg_hdr) (Some (mkSblk (g_addr s) size 0 true)), Some (g_addr s + seg_hdr + blk_hdr))
  end.
(** src/mln_alloc.c:512-535 mln_alloc_shm_m, 556-566 mln_alloc_shm_new_block; the answer [Some (p, None)] is NULL. *)
Definition shm_alloc (p : shm) (size : N) : option (shm * option N) :=
  if large_size <? size then shm_large p size
  else
    match find_seg (sh_segs p) size with
    | Some (i, x) => r <- carve p i x size ;; Some (fst r, Some (snd r))
    | None =>
        match place (sh_cap p) default_size small_seg pool_hdr (sh_segs p) with
        | None => Some (p, None)
        | Some (l, i) =>
            s <- nth_error l i ;;
            x <- allowed s size ;;
            r <- carve (set_segs p l) i x size ;; Some (fst r, Some (snd r))
        end
    end.

Fixpoint seg_index (a : N) (l : list seg) : option nat :=
  match l with [] => None | s :: l => if g_addr s =? a then Some 0%nat else option_map S (seg_index a l) end.
(** src/mln_alloc.c:648-677 mln_alloc_free_shm *)
Definition shm_free (p : shm) (q : N) : option shm :=
  if q <? blk_hdr then None
  else
    k <- sh_blks p (q - blk_hdr) ;;
    i <- seg_index (k_seg k) (sh_segs p) ;;
    s <- nth_error (sh_segs p) i ;;
    let p := set_sblk p (q - blk_hdr) None in
    s' <- (if g_large s then Some s
           else
             let B := N.land (N.shiftr (k_pad k) 8) 65535 in
             let b := N.land (k_pad k) 255 in
             m <- mark N.ldiff (N.to_nat (units (k_size k))) (g_map s) (N.to_nat B) (N.to_nat b) ;;
             Some (mkSeg (g_addr s) (g_size s) (g_nfree s + units (k_size k)) (g_base s) (g_large s) m)) ;;
    if g_large s' || (g_nfree s' =? g_base s') then Some (set_segs p (remove_nth i (sh_segs p)))
    else Some (set_segs p (upd (sh_segs p) i s')).

(** src/mln_alloc.c:395-405 mln_alloc_c *)
Definition shm_zero (p : shm) (size : N) : option (shm * option N) :=
  r <- shm_alloc p size ;;
  match r with (p, None) => Some (p, None) | (p, Some q) => Some (set_smem p (fill (sh_mem p) q size 0), Some q) end.
(** src/mln_alloc.c:407-429 mln_alloc_re of a block of the same pool. *)
Definition shm_re (p : shm) (q size : N) : option (shm * option N) :=
  if size =? 0 then p <- shm_free p q ;; Some (p, None)
  else if q <? blk_hdr then None
  else
    k <- sh_blks p (q - blk_hdr) ;;
    if size <=? k_size k then Some (p, Some q)
    else
      r <- shm_alloc p size ;;
      match r with
      | (p, None) => Some (p, None)
      | (p, Some q') =>
          let p := set_smem p (copy (sh_mem p) q' q (k_size k)) in
          p <- shm_free p q ;; Some (p, Some q')
      end.

Inductive sop := SAlloc (size : N) | SZero (size : N) | SRe (q size : N) | SFree (q : N) | SStore (a v : N).
Definition shm_step (p : shm) (o : sop) : option (shm * option N) :=
  match o with
  | SAlloc size => shm_alloc p size
  | SZero size => shm_zero p size
  | SRe q size => shm_re p q size
  | SFree q => p <- shm_free p q ;; Some (p, None)
  | SStore a v => Some (set_smem p (fill (sh_mem p) a 1 v), None)
  end.
Fixpoint shm_run (p : shm) (ops : list sop) : option (shm * list (option N)) :=
  match ops with
  | [] => Some (p, [])
  | o :: ops => r <- shm_step p o ;; s <- shm_run (fst r) ops ;; Some (fst s, snd r :: snd s)
  end.

(** src/mln_alloc.c:679-684 mln_alloc_shm_count_bits, on one byte. *)
Definition count_bits (n : N) : N :=
  let n := (n + 256 - N.land (N.shiftr n 1) 85) mod 256 in
  let n := N.land n 51 + N.land (N.shiftr n 2) 51 in
  N.land (n + N.shiftr n 4) 15.
(** src/mln_alloc.c:686-704 mln_alloc_available_capacity for a pool in shared memory; [None] when a bitmap that was never written is read. *)
Definition shm_available (p : shm) : option N :=
  if existsb g_large (sh_segs p) then None
  else
    let sum := fold_left (fun a s => fold_left (fun a c => a + count_bits c) (g_map s) a) (sh_segs p) 0 in
    Some (((N.shiftl (N.of_nat map_len) 3 + 2 ^ 64 - sum mod 2 ^ 64) mod 2 ^ 64 * unit) mod 2 ^ 64).

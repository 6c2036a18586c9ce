(** Model of src/mln_array.c. The element buffer is a map from element index to value ([None] = never written) together
    with its size in bytes; sizes are 64-bit words that wrap. [Undef] is an access outside the buffer, [Diverges] a loop
    that does not terminate. malloc is an oracle deciding, per call, whether a request for so many bytes succeeds. The
    pool variants call the pool allocator in place of malloc and are otherwise the same code. *)
Require Import List Arith NArith Bool.
Require Import Verif.Base.
Import ListNotations.
Open Scope N_scope.

Inductive res (A : Type) := Ok (a : A) | Diverges | Undef.
Arguments Ok {A}. Arguments Diverges {A}. Arguments Undef {A}.
Definition rbind {A B} (x : res A) (f : A -> res B) : res B :=
  match x with Ok a => f a | Diverges => Diverges | Undef => Undef end.

Definition wrap (x : N) : N := x mod 2^64.

Section Array.
Variable V : Type.

(** include/mln_array.h:14-27 mln_array_t without the pool and destructor fields; [nbytes] is what malloc returned. *)
Record arr := mkA { buf : N -> option V; nbytes : N; esize : N; nalloc : N; nelts : N }.

(** src/mln_array.c:143-145 [while (n + arr->nelts > num) num <<= 1;]. A doubling that has reached 0 stays there, so 65
    steps decide termination. *)
Fixpoint grow (fuel : nat) (need num : N) : res N :=
  match fuel with
  | O => Diverges
  | S f => if num <? need then grow f need (wrap (2 * num)) else Ok num
  end.

(** src/mln_array.c:140-163 mln_array_alloc: false = -1. *)
Definition arr_alloc (ok : N -> bool) (a : arr) (n : N) : res (arr * bool) :=
  rbind (grow 66 (wrap (n + nelts a)) (nalloc a)) (fun num =>
  let bytes := wrap (num * esize a) in
  if negb (ok bytes) then Ok (a, false)
  else
    let cp := wrap (nelts a * esize a) in
    if (cp <=? nbytes a) && (cp <=? bytes) then
      Ok (mkA (fun i => if i <? nelts a then buf a i else None) bytes (esize a) num (nelts a), true)
    else Undef).

(** src/mln_array.c:13-26 mln_array_init. *)
Definition arr_init (ok : N -> bool) (size nalloc : N) : res (arr * bool) :=
  arr_alloc ok (mkA (fun _ => None) 0 size nalloc 0) nalloc.

(** src/mln_array.c:120-126 mln_array_push, 128-138 mln_array_pushn: index of the first new element, None = NULL. *)
Definition arr_push (ok : N -> bool) (a : arr) : res (arr * option N) :=
  rbind (if nalloc a <=? nelts a then arr_alloc ok a 1 else Ok (a, true)) (fun r =>
  let '(a, fine) := r in
  if fine : bool then Ok (mkA (buf a) (nbytes a) (esize a) (nalloc a) (wrap (nelts a + 1)), Some (nelts a))
  else Ok (a, None)).
Definition arr_pushn (ok : N -> bool) (a : arr) (n : N) : res (arr * option N) :=
  rbind (if nalloc a <? wrap (nelts a + n) then arr_alloc ok a n else Ok (a, true)) (fun r =>
  let '(a, fine) := r in
  if fine : bool then Ok (mkA (buf a) (nbytes a) (esize a) (nalloc a) (wrap (nelts a + n)), Some (nelts a))
  else Ok (a, None)).

(** User code storing to, and loading from, element [i] of [mln_array_elts(arr)]. *)
Definition in_buf (a : arr) (i : N) : bool := (i + 1) * esize a <=? nbytes a.
Definition arr_write (a : arr) (i : N) (v : V) : res arr :=
  if in_buf a i then Ok (mkA (fun j => if j =? i then Some v else buf a j) (nbytes a) (esize a) (nalloc a) (nelts a)) else Undef.
Definition arr_read (a : arr) (i : N) : res (option V) := if in_buf a i then Ok (buf a i) else Undef.

(** src/mln_array.c:165-172 mln_array_pop: the element handed to the destructor. *)
Definition arr_pop (a : arr) : res (arr * option (option V)) :=
  if nelts a =? 0 then Ok (a, None)
  else rbind (arr_read a (nelts a - 1)) (fun v =>
       Ok (mkA (buf a) (nbytes a) (esize a) (nalloc a) (nelts a - 1), Some v)).

(** src/mln_array.c:109-118 mln_array_reset (and the loop of 76-89 mln_array_destroy / 91-107 mln_array_free): the elements
    handed to the destructor, first to last. With element size 0 the C loop visits none. *)
Fixpoint read_from (k : nat) (a : arr) (i : N) : res (list (option V)) :=
  match k with
  | O => Ok []
  | S k' => rbind (arr_read a i) (fun v => rbind (read_from k' a (i + 1)) (fun l => Ok (v :: l)))
  end.
Definition arr_reset (a : arr) : res (arr * list (option V)) :=
  rbind (read_from (N.to_nat (nelts a)) a 0) (fun l =>
  Ok (mkA (buf a) (nbytes a) (esize a) (nalloc a) 0, l)).

(** Programs; the caller only writes and reads below the element count. *)
Inductive aop := APush | APushN (n : N) | AWrite (i : N) (v : V) | ARead (i : N) | APop | ACount | AReset.
Inductive aout := AoPtr (p : option N) | AoUnit | AoVal (v : option V) | AoFreed (v : option (option V)) | AoNum (n : N)
  | AoAll (l : list (option V)).
Definition a_step (ok : N -> bool) (a : arr) (o : aop) : res (arr * aout) :=
  match o with
  | APush => rbind (arr_push ok a) (fun r => Ok (fst r, AoPtr (snd r)))
  | APushN n => rbind (arr_pushn ok a n) (fun r => Ok (fst r, AoPtr (snd r)))
  | AWrite i v => if i <? nelts a then rbind (arr_write a i v) (fun a => Ok (a, AoUnit)) else Ok (a, AoUnit)
  | ARead i => if i <? nelts a then rbind (arr_read a i) (fun v => Ok (a, AoVal v)) else Ok (a, AoUnit)
  | APop => rbind (arr_pop a) (fun r => Ok (fst r, AoFreed (snd r)))
  | ACount => Ok (a, AoNum (nelts a))
  | AReset => rbind (arr_reset a) (fun r => Ok (fst r, AoAll (snd r)))
  end.
Fixpoint a_run (ok : nat -> N -> bool) (k : nat) (a : arr) (ops : list aop) : res (arr * list aout) :=
  match ops with
  | [] => Ok (a, [])
  | o :: t =>
      rbind (a_step (ok k) a o) (fun r =>
      rbind (a_run ok (S k) (fst r) t) (fun s => Ok (fst s, snd r :: snd s)))
  end.
End Array.
Arguments mkA {V}. Arguments buf {V}. Arguments nbytes {V}. Arguments esize {V}. Arguments nalloc {V}. Arguments nelts {V}.
Arguments arr_alloc {V}. Arguments arr_init {V}. Arguments arr_push {V}. Arguments arr_pushn {V}. Arguments in_buf {V}.
Arguments arr_write {V}. Arguments arr_read {V}. Arguments arr_pop {V}. Arguments read_from {V}. Arguments arr_reset {V}.
Arguments APush {V}. Arguments APushN {V}. Arguments AWrite {V}. Arguments ARead {V}. Arguments APop {V}. Arguments ACount {V}. Arguments AReset {V}.
Arguments AoPtr {V}. Arguments AoUnit {V}. Arguments AoVal {V}. Arguments AoFreed {V}. Arguments AoNum {V}. Arguments AoAll {V}.
Arguments a_step {V}. Arguments a_run {V}.

(** What the users of a pool in shared memory see, written without reference to its bookkeeping. *)
Require Import List NArith Bool.
Require Import Verif.Base Verif.AllocSpec Verif.ShmModel.
Import ListNotations.
Open Scope N_scope.

(** A block held by a program: its address, its length, the length that was asked for when it was handed out (a smaller mln_alloc_re leaves it
    where it is), and the bytes that the program can rely on. *)
Record sl := mkSl { v_ptr : N; v_len : N; v_room : N; v_bytes : N -> option N }.
Definition drop_at (q : N) (l : list sl) : list sl := filter (fun b => negb (v_ptr b =? q)) l.
Definition held_at (q : N) (l : list sl) : option sl := find (fun b => v_ptr b =? q) l.
Definition spoke (a v : N) (b : sl) : sl := mkSl (v_ptr b) (v_len b) (v_room b) (fun i => if v_ptr b + i =? a then Some v else v_bytes b i).
(** malloc, calloc, realloc and free of the C standard. *)
Definition slive_step (l : list sl) (o : sop) (r : option N) : list sl :=
  match o with
  | SAlloc size => match r with Some q => mkSl q size size (fun _ => None) :: l | None => l end
  | SZero size => match r with Some q => mkSl q size size (fun _ => Some 0) :: l | None => l end
  | SRe q size =>
      if size =? 0 then drop_at q l
      else match r, held_at q l with
           | Some q', Some b => mkSl q' size (if q' =? q then v_room b else size) (fun i => if i <? v_len b then v_bytes b i else None) :: drop_at q l
           | _, _ => l
           end
  | SFree q => drop_at q l
  | SStore a v => map (spoke a v) l
  end.
(** The program asks for less than 2^63 bytes, uses only blocks it holds, and stores only into them. *)
Definition slegal (l : list sl) (o : sop) : Prop :=
  match o with
  | SAlloc size | SZero size => size < 2 ^ 63
  | SRe q size => size < 2 ^ 63 /\ In q (map v_ptr l)
  | SFree q => In q (map v_ptr l)
  | SStore a _ => exists b, In b l /\ v_ptr b <= a < v_ptr b + v_len b
  end.
Inductive sreach (cap : N) : list sl -> shm -> Prop :=
| sreach_new f p : shm_init cap f = Some p -> sreach cap [] p
| sreach_step l p o p' r : sreach cap l p -> slegal l o -> shm_step p o = Some (p', r) -> sreach cap (slive_step l o r) p'.

(** A segment is an area of the pool: 2 MB that serve small requests, or one large block. Its first 4144 bytes are its header; the units of the
    others are 64 bytes long. *)
Definition first_units : N := 65.
Definition all_units : N := 32768.
Definition unit_set (s : seg) (k : N) : bool := N.testbit (nth (N.to_nat (k / 8)) (g_map s) 255) (7 - k mod 8).
(** Units [k] on are free, [n] of them. *)
Definition free_run (s : seg) (k n : N) : Prop := forall i, k <= i < k + n -> unit_set s i = false.
(** The bytes from [a] on, [n] of them, are in the pool and in no segment. *)
Definition unused (p : shm) (a n : N) : Prop :=
  2048 <= a /\ a + n <= sh_cap p /\ forall s, In s (sh_segs p) -> apart a n (g_addr s) (g_size s).
(** The block, with its header, lies in the segment. *)
Definition lies_in (s : seg) (b : sl) : Prop := g_addr s <= v_ptr b - 56 < g_addr s + g_size s.
(** Unit [k] of the segment has a byte of the block or of its header. *)
Definition takes (s : seg) (b : sl) (k : N) : Prop := lies_in s b /\ v_ptr b - 56 < g_addr s + 64 * (k + 1) /\ g_addr s + 64 * k < v_ptr b + v_room b.

(** What the users of a pool and the allocator below it see, written without reference to the pool. *)
Require Import List NArith Bool.
Require Import Verif.Base Verif.AllocModel.
Import ListNotations.
Open Scope N_scope.

(** A block that a program holds: its address, its length, and the bytes that the program can rely on. *)
Record lb := mkLb { l_ptr : N; l_len : N; l_bytes : N -> option N }.
(** The blocks held by the program; the chunks (address and length) the pool holds of the allocator below; the number of bytes that were asked
    there in vain. *)
Record view := mkView { live : list lb; held : list (N * N); lost : N }.

Definition without (q : N) (l : list lb) : list lb := filter (fun b => negb (l_ptr b =? q)) l.
Definition block_at (q : N) (l : list lb) : option lb := find (fun b => l_ptr b =? q) l.
Definition poke (a v : N) (b : lb) : lb :=
  mkLb (l_ptr b) (l_len b) (fun i => if l_ptr b + i =? a then Some v else l_bytes b i).
(** malloc, calloc, realloc and free of the C standard. *)
Definition live_step (l : list lb) (o : op) (r : option N) : list lb :=
  match o with
  | AAlloc size _ => match r with Some q => mkLb q size (fun _ => None) :: l | None => l end
  | AZero size _ => match r with Some q => mkLb q size (fun _ => Some 0) :: l | None => l end
  | ARe q size _ =>
      if size =? 0 then without q l
      else match r, block_at q l with
           | Some q', Some b => mkLb q' size (fun i => if i <? l_len b then l_bytes b i else None) :: without q l
           | _, _ => l
           end
  | AFree q => without q l
  | AStore a v => map (poke a v) l
  end.
Definition view_step (v : view) (o : op) (r : out) : view :=
  let h := match o_ask r with Some (n, Some a) => (a, n) :: held v | _ => held v end in
  let h := match o_back r with Some a => filter (fun c => negb (fst c =? a)) h | None => h end in
  mkView (live_step (live v) o (o_ptr r)) h (lost v + match o_ask r with Some (n, None) => n | _ => 0 end).

(** Two areas have no byte in common. *)
Definition apart (a n b m : N) : Prop := a + n <= b \/ b + m <= a.
(** The allocator below hands out areas of the address space that it has not handed out before. *)
Definition fresh (h : list (N * N)) (n a : N) : Prop := 0 < a /\ a + n <= 2 ^ 64 /\ forall c m, In (c, m) h -> apart a n c m.
Definition fair (v : view) (ans : N -> option N) : Prop := forall n a, ans n = Some a -> fresh (held v) n a.
(** The program asks for less than 2^63 bytes, uses only blocks it holds, and stores only into them. *)
Definition legal (v : view) (o : op) : Prop :=
  match o with
  | AAlloc size ans | AZero size ans => size < 2 ^ 63 /\ fair v ans
  | ARe q size ans => size < 2 ^ 63 /\ fair v ans /\ In q (map l_ptr (live v))
  | AFree q => In q (map l_ptr (live v))
  | AStore a _ => exists b, In b (live v) /\ l_ptr b <= a < l_ptr b + l_len b
  end.

(** What can come of a pool with capacity [cap] (0: no limit) in any history. *)
Inductive reach (cap : N) : view -> pool -> Prop :=
| reach_new f : reach cap (mkView [] [] 0) (pool_new cap f)
| reach_step v p o p' r : reach cap v p -> legal v o -> p_step p o = Some (p', r) -> reach cap (view_step v o r) p'.

Definition total (h : list (N * N)) : N := fold_right (fun c s => snd c + s) 0 h.

(** The size classes: the powers of two from 16 to 2 MB, and the numbers half way between two of them. *)
Definition classes : list N := flat_map (fun k => [2 ^ N.of_nat k; 3 * 2 ^ N.of_nat (k - 1)]) (seq 4 17) ++ [2 ^ 21].
Definition class_for (size : N) : option N := find (fun c => size <=? c) classes.
(** The bytes a pool needs from below when it has no block for a request: a header and four blocks of the class with their headers; or one block
    with two headers in a multiple of four bytes. *)
Definition need (size : N) : N := match class_for size with Some c => 88 + 4 * (56 + c) | None => 4 * ((size + 88 + 56 + 3) / 4) end.
(** The requests that are answered with NULL when there is no memory. *)
Definition asks (o : op) : Prop := match o with AAlloc _ _ | AZero _ _ => True | ARe _ size _ => size <> 0 | _ => False end.
Definition request (o : op) : N := match o with AAlloc size _ | AZero size _ | ARe _ size _ => size | _ => 0 end.

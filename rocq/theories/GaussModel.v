(** * Matrices and Gauss-Jordan elimination

    Models the two copies Melon has of the same algorithm: the [double]
    matrices of src/mln_matrix.c and the byte matrices of src/mln_rs.c.  The
    element type and its operations are parameters here; [MatrixModel]
    instantiates them with exact rationals and [RsModel] with the byte field.

    Simplifications: the row-major arrays are presented as lists of rows; an
    allocation never fails; [row * col] does not overflow. *)

From Coq Require Import List Arith.
Import ListNotations.

(** Two arrays walked side by side. *)
Fixpoint map2 {A B C : Type} (f : A -> B -> C) (l1 : list A) (l2 : list B) : list C :=
  match l1, l2 with
  | x :: l1', y :: l2' => f x y :: map2 f l1' l2'
  | _, _ => []
  end.

(** An array walked with its index. *)
Definition mapi {A B : Type} (f : nat -> A -> B) (l : list A) : list B :=
  map2 f (seq 0 (length l)) l.

(** One cell of an array overwritten. *)
Fixpoint set_nth {A : Type} (l : list A) (i : nat) (v : A) : list A :=
  match l, i with
  | [], _ => []
  | _ :: t, O => v :: t
  | x :: t, S i' => x :: set_nth t i' v
  end.

Section Gauss.

Variable F : Type.
Variables zero one : F.
Variables add sub mul div : F -> F -> F.
(** [better y x]: the comparison of src/mln_matrix.c:98 and src/mln_rs.c:208,
    which lets [y] replace [x] as pivot. *)
Variable better : F -> F -> bool.
(** [tiny x]: the test of src/mln_matrix.c:114 and src/mln_rs.c:224. *)
Variable tiny : F -> bool.

Definition matrix := list (list F).

(** Row [i] of a matrix. *)
Definition row (m : matrix) (i : nat) : list F := nth i m [].

(** src/mln_matrix.c:95: [origin[i + m]], an element. *)
Definition cell (m : matrix) (i j : nat) : F := nth j (row m i) zero.

(** src/mln_matrix.c:56-61, src/mln_rs.c:160-168: one row of a product, the
    accumulator being the zeroed row of [calloc]. *)
Definition row_mul (r : list F) (m2 : matrix) (c : nat) : list F :=
  fold_left (fun acc tr => map2 (fun x y => add x (mul (fst tr) y)) acc (snd tr))
    (combine r m2) (repeat zero c).

(** src/mln_matrix.c:55-62, src/mln_rs.c:159-169: all rows of a product; [c] is
    the number of columns of the second factor. *)
Definition mat_mul (m1 m2 : matrix) (c : nat) : matrix :=
  map (fun r => row_mul r m2 c) m1.

(** src/mln_matrix.c:88-92, src/mln_rs.c:198-202, 264-268: the identity. *)
Definition unit_row (n k : nat) : list F :=
  map (fun j => if Nat.eqb j k then one else zero) (seq 0 n).
Definition ident (n : nat) : matrix := map (unit_row n) (seq 0 n).

(** src/mln_matrix.c:95-102, src/mln_rs.c:205-212: the search for the pivot of
    column [m] among the rows from [m] on.  The state is [(tmp, k)]. *)
Definition pivot_step (o : matrix) (m : nat) (s : F * nat) (j : nat) : F * nat :=
  if better (cell o j m) (fst s) then (cell o j m, j) else s.
Definition pivot (n : nat) (o : matrix) (m : nat) : F * nat :=
  fold_left (pivot_step o m) (seq (S m) (n - S m)) (cell o m m, m).

(** src/mln_matrix.c:104-113, src/mln_rs.c:214-223: two rows exchanged. *)
Definition swap_rows (o : matrix) (i k : nat) : matrix :=
  if Nat.eqb k i then o
  else set_nth (set_nth o i (row o k)) k (row o i).

(** src/mln_matrix.c:120-124, src/mln_rs.c:230-234: a row divided. *)
Definition scale_row (o : matrix) (m : nat) (p : F) : matrix :=
  set_nth o m (map (fun x => div x p) (row o m)).

(** src/mln_matrix.c:125-133, src/mln_rs.c:235-247: column [m] cleared in every
    row but [m].  [o] supplies the factors, and the change is made in [d]; the
    code does it in both arrays in the same pass, the factor of a row being
    read before the row is changed. *)
Definition clear_col (o d : matrix) (m : nat) : matrix :=
  mapi (fun j r =>
          if Nat.eqb j m then r
          else let t := cell o j m in
               map2 (fun x y => sub x (mul y t)) r (row d m)) d.

(** src/mln_matrix.c:94-134, src/mln_rs.c:204-248: the passes of the main loop
    over the columns [ms].  The first result is what the array of the argument
    has become; the second is the array of the result, or [None] for NULL. *)
Fixpoint reduce (n : nat) (ms : list nat) (o d : matrix) : matrix * option matrix :=
  match ms with
  | [] => (o, Some d)
  | m :: ms' =>
      let k := snd (pivot n o m) in
      let o1 := swap_rows o m k in
      let d1 := swap_rows d m k in
      let p := cell o1 m m in
      if tiny p then (o1, None)
      else
        let o2 := scale_row o1 m p in
        let d2 := scale_row d1 m p in
        reduce n ms' (clear_col o2 o2 m) (clear_col o2 d2 m)
  end.

(** src/mln_matrix.c:67-137, src/mln_rs.c:174-251: the inverse of a square
    matrix with [n] rows. *)
Definition invert (n : nat) (o : matrix) : matrix * option matrix :=
  reduce n (seq 0 n) o (ident n).

End Gauss.

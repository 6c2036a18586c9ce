(** RC4 key stream written over functions N -> N instead of arrays. *)
Require Import List NArith.
Import ListNotations.
Open Scope N_scope.

Definition fswap (f : N -> N) (i j : N) : N -> N :=
  fun x => if x =? i then f j else if x =? j then f i else f x.

(** key scheduling *)
Fixpoint spec_ksa (is : list N) (key : list N) (f : N -> N) (j : N) : N -> N :=
  match is with
  | [] => f
  | i :: t =>
      let j := (j + f i + nth (N.to_nat (i mod N.of_nat (length key))) key 0) mod 256 in
      spec_ksa t key (fswap f i j) j
  end.
Definition spec_table (key : list N) : N -> N :=
  spec_ksa (map N.of_nat (seq 0 256)) key (fun x => x) 0.

(** [n] key-stream bytes from table [f] and indices [i], [j] *)
Fixpoint spec_stream (n : nat) (f : N -> N) (i j : N) : list N :=
  match n with
  | O => []
  | S n' =>
      let i := (i + 1) mod 256 in
      let j := (j + f i) mod 256 in
      let f := fswap f i j in
      f ((f i + f j) mod 256) :: spec_stream n' f i j
  end.

Fixpoint xor_lists (a b : list N) : list N :=
  match a, b with
  | x :: a', y :: b' => N.lxor x y :: xor_lists a' b'
  | _, _ => []
  end.

(** RC4 of [data] under [key]. *)
Definition rc4_spec (key data : list N) : list N :=
  xor_lists data (spec_stream (length data) (spec_table key) 0 0).

(** What the primality test decides, and what numbers the search may return. *)
Require Import List NArith ZArith Znumtheory.
Import ListNotations.
Local Open Scope Z_scope.

(** [v] is a strong probable prime to the base [b] (Miller, Rabin): with v - 1 = 2^s * o and o odd, b^o is one or one of
    b^o, b^2o, b^4o, ... below b^(v-1) is minus one. *)
Definition strong_probable_prime (v b : Z) : Prop :=
  exists s o, 0 <= s /\ 0 <= o /\ v - 1 = 2 ^ s * (2 * o + 1) /\
    (b ^ (2 * o + 1) mod v = 1 mod v \/ exists i, 0 <= i < s /\ b ^ (2 ^ i * (2 * o + 1)) mod v = v - 1).

(** An odd number of exactly [width] bits. *)
Definition odd_of_width (width : N) (v : N) : Prop := (2 ^ (width - 1) <= v < 2 ^ width)%N /\ N.odd v = true.

(** What rand_r gives. *)
Definition draws (ds : list N) : Prop := Forall (fun d => (d < 2 ^ 31)%N) ds.

(** The search as a number theorist would write it, over a generator that makes a number of a given width from a
    stream of random numbers and leaves the rest of the stream. *)
Section Search.
Variable gen : N -> list N -> option (N * list N).
Variable width : N.

(** A base: a width below [width], at least two, and a number of that width. *)
Inductive sample : list N -> N -> list N -> Prop :=
  | sample_skip d ds b r : (d mod width < 2)%N -> sample ds b r -> sample (d :: ds) b r
  | sample_take d ds b r : (2 <= d mod width)%N -> gen (d mod width)%N ds = Some (b, r) -> sample (d :: ds) b r.

(** [n] bases against the candidate [v], up to the first that shows it to be composite. *)
Inductive trial (v : N) : nat -> list N -> bool -> list N -> Prop :=
  | trial_done ds : trial v 0 ds true ds
  | trial_pass n ds b r ok r' : sample ds b r -> strong_probable_prime (Z.of_N v) (Z.of_N b) -> trial v n r ok r' -> trial v (S n) ds ok r'
  | trial_fail n ds b r : sample ds b r -> ~ strong_probable_prime (Z.of_N v) (Z.of_N b) -> trial v (S n) ds false r.

(** How many bases: four, and one for every 512 bits of longer numbers. *)
Definition rounds : nat := if (width <=? 512)%N then 4 else N.to_nat (width / 512).

(** The candidates thrown away and the number found. *)
Inductive search : list N -> list N -> N -> list N -> Prop :=
  | search_found ds v r r' : gen width ds = Some (v, r) -> trial v rounds r true r' -> search ds [] v r'
  | search_next ds c r r1 rejected v r' : gen width ds = Some (c, r) -> trial c rounds r false r1 -> search r1 rejected v r' ->
      search ds (c :: rejected) v r'.
End Search.

(** AES as FIPS 197 defines it, on blocks of 16 bytes taken column by column. Nothing here refers to the code. *)
Require Import List Arith NArith Bool.
Import ListNotations.
Open Scope N_scope.

(** 4.2: multiplication in GF(2^8) modulo x^8+x^4+x^3+x+1. *)
Definition times_x (b : N) : N := if b <? 128 then 2 * b else N.lxor (2 * b) 0x11b.
Fixpoint gmul_steps (n : nat) (a b : N) : N :=
  match n with O => 0 | S n => N.lxor (if N.odd a then b else 0) (gmul_steps n (a / 2) (times_x b)) end.
Definition gmul (a b : N) : N := gmul_steps 8 a b.
(** The inverse of a non-zero byte is its 254th power, 254 = 2+4+8+16+32+64+128; zero is sent to zero. *)
Definition square (b : N) : N := gmul b b.
Definition ginv (b : N) : N :=
  let b2 := square b in let b4 := square b2 in let b8 := square b4 in let b16 := square b8 in
  let b32 := square b16 in let b64 := square b32 in let b128 := square b64 in
  gmul b2 (gmul b4 (gmul b8 (gmul b16 (gmul b32 (gmul b64 b128))))).

(** 5.1.1: S-box: inverse, then the affine map b_i + b_(i+4) + b_(i+5) + b_(i+6) + b_(i+7) + c_i. *)
Definition affine (b : N) : N :=
  fold_right (fun i acc => N.lor acc (if xorb (xorb (xorb (xorb (xorb (N.testbit b i) (N.testbit b ((i + 4) mod 8))) (N.testbit b ((i + 5) mod 8)))
    (N.testbit b ((i + 6) mod 8))) (N.testbit b ((i + 7) mod 8))) (N.testbit 0x63 i) then 2 ^ i else 0)) 0 [0; 1; 2; 3; 4; 5; 6; 7].
Definition sub_byte (b : N) : N := affine (ginv b).
(** 5.3.2: the byte whose S-box value is [b]. *)
Definition inv_sub_byte (b : N) : N := match find (fun x => sub_byte x =? b) (map N.of_nat (seq 0 256)) with Some x => x | None => 0 end.

Definition block := list N.
Definition at_ (s : block) (r c : nat) : N := nth (r + 4 * c) s 0.
(** Build a block from its entry in row [r] and column [c]. *)
Definition make (f : nat -> nat -> N) : block := flat_map (fun c => map (fun r => f r c) [0; 1; 2; 3]%nat) [0; 1; 2; 3]%nat.

Definition sub_bytes (s : block) : block := make (fun r c => sub_byte (at_ s r c)).
Definition inv_sub_bytes (s : block) : block := make (fun r c => inv_sub_byte (at_ s r c)).
(** 5.1.2, 5.3.1 *)
Definition shift_rows (s : block) : block := make (fun r c => at_ s r ((c + r) mod 4)).
Definition inv_shift_rows (s : block) : block := make (fun r c => at_ s r ((c + 4 - r) mod 4)).
(** 5.1.3, 5.3.3: each column is multiplied by a circulant matrix. *)
Definition mix (k : list N) (s : block) : block :=
  make (fun r c => fold_right (fun i acc => N.lxor (gmul (nth ((i + 4 - r) mod 4) k 0) (at_ s i c)) acc) 0 [0; 1; 2; 3]%nat).
Definition mix_columns : block -> block := mix [2; 3; 1; 1].
Definition inv_mix_columns : block -> block := mix [0x0e; 0x0b; 0x0d; 0x09].

(** 5.2: words are lists of four bytes. *)
Definition word := list N.
Definition xor_word (a b : word) : word := map (fun p => N.lxor (fst p) (snd p)) (combine a b).
Definition rot_word (w : word) : word := match w with [a; b; c; d] => [b; c; d; a] | _ => w end.
Definition round_constant (i : nat) : word := [Nat.iter (i - 1) times_x 1; 0; 0; 0].
Definition next_word (nk i : nat) (ws : list word) : word :=
  let temp := nth (i - 1) ws [] in
  let temp := if (i mod nk =? 0)%nat then xor_word (map sub_byte (rot_word temp)) (round_constant (i / nk))
              else if (6 <? nk)%nat && (i mod nk =? 4)%nat then map sub_byte temp else temp in
  xor_word (nth (i - nk) ws []) temp.
Fixpoint more_words (nk : nat) (ws : list word) (n : nat) : list word :=
  match n with O => ws | S n => more_words nk (ws ++ [next_word nk (length ws) ws]) n end.
Definition first_words (nk : nat) (key : list N) : list word :=
  map (fun i => [nth (4 * i) key 0; nth (4 * i + 1) key 0; nth (4 * i + 2) key 0; nth (4 * i + 3) key 0]) (seq 0 nk).
Definition key_expansion (nk nr : nat) (key : list N) : list word := more_words nk (first_words nk key) (4 * (nr + 1) - nk).

(** 5.1.4 *)
Definition add_round_key (ws : list word) (round : nat) (s : block) : block :=
  make (fun r c => N.lxor (at_ s r c) (nth r (nth (4 * round + c) ws []) 0)).
(** 5.1 and 5.3 *)
Definition cipher (nr : nat) (ws : list word) (s : block) : block :=
  let s := fold_left (fun s round => add_round_key ws round (mix_columns (shift_rows (sub_bytes s)))) (seq 1 (nr - 1)) (add_round_key ws 0 s) in
  add_round_key ws nr (shift_rows (sub_bytes s)).
Definition inv_cipher (nr : nat) (ws : list word) (s : block) : block :=
  let s := fold_left (fun s round => inv_mix_columns (add_round_key ws round (inv_sub_bytes (inv_shift_rows s)))) (rev (seq 1 (nr - 1))) (add_round_key ws nr s) in
  add_round_key ws 0 (inv_sub_bytes (inv_shift_rows s)).

(** The three key sizes: code, words of key, rounds. *)
Inductive aes_size : N -> nat -> nat -> Prop :=
| aes128 : aes_size 0 4 10 | aes192 : aes_size 1 6 12 | aes256 : aes_size 2 8 14.

(** Model of src/mln_rc.c (RC4). An access outside an array, or a division by zero, gives [None]. *)
Require Import List Arith NArith Lia Bool.
Require Import Verif.Base.
Import ListNotations.
Open Scope N_scope.

(** read s[i] / write s[i] with a 32-bit index *)
Definition rd (s : list N) (i : N) : option N := nth_error s (N.to_nat i).
Definition wr (s : list N) (i : N) (v : N) : option (list N) := store s (N.to_nat i) v.

(** src/mln_rc.c:25-27 / 44-46: exchange s[i] and s[j]. *)
Definition swap (s : list N) (i j : N) : option (list N) :=
  tmp <- rd s i ;; sj <- rd s j ;; s <- wr s i sj ;; wr s j tmp.

(** src/mln_rc.c:23-28: key scheduling, for the indices in [is]; k[i] = key[i % len] (line 21). *)
Fixpoint ksa (is : list N) (key : list N) (s : list N) (j : N) : option (list N) :=
  match is with
  | [] => Some s
  | i :: t =>
      si <- rd s i ;;
      ki <- rd key (i mod N.of_nat (length key)) ;;
      let j := (j + si + ki) mod 256 in
      s <- swap s i j ;;
      ksa t key s j
  end.

Definition idx256 : list N := map N.of_nat (seq 0 256).

(** src/mln_rc.c:11-29 mln_rc4_init: the state table. A zero-length key divides by zero. *)
Definition rc4_init (key : list N) : option (list N) :=
  if (length key =? 0)%nat then None else ksa idx256 key idx256 0.

(** src/mln_rc.c:41-49: loop over the data with the private copy [s] of the table. *)
Fixpoint rc4_loop (s : list N) (i j : N) (data : list N) : option (list N) :=
  match data with
  | [] => Some []
  | d :: t =>
      let i := (i + 1) mod 256 in
      si <- rd s i ;;
      let j := (j + si) mod 256 in
      s <- swap s i j ;;
      si <- rd s i ;; sj <- rd s j ;;
      k <- rd s ((si + sj) mod 256) ;;
      r <- rc4_loop s i j t ;;
      Some (N.lxor d k :: r)
  end.

(** src/mln_rc.c:31-50 mln_rc4_calc: data after the call; the table is copied (line 39), so it is unchanged. *)
Definition rc4_calc (s : list N) (data : list N) : option (list N) := rc4_loop s 0 0 data.

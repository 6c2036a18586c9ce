(** C04: dynamic arrays. *)
Require Import List Arith NArith Bool.
Require Import Verif.Base Verif.ArrayModel Verif.ArraySpec Verif.ArrayProofs.
Import ListNotations.
Open Scope N_scope.

(** For a non-zero initial size, a non-zero element size and sizes whose byte counts fit in a machine word, every program over the array, with
    allocation failing at any points, terminates, stays inside the buffer and behaves as a list. *)
Theorem array_is_list_partial :
  forall (V : Type) (ok : nat -> N -> bool) (size n0 : N) (ops : list (aop V)),
    0 < size -> 0 < n0 -> 2 * (n0 + requested ops) * (size + 1) < 2^64 ->
    exists a0 made, arr_init (ok 0%nat) size n0 = Ok (a0, made) /\
      (made = true -> exists a outs, a_run ok 1 a0 ops = Ok (a, outs) /\ a_spec_run [] ops outs).
Proof. exact (fun V ok size n0 ops _ => array_ok ok size n0 ops). Qed.
Print Assumptions array_is_list_partial.

Example array_meets :
  let ok (k : nat) (b : N) := negb (Nat.eqb k 8) in
  let ops := [APush; AWrite 0 7; APush; AWrite 1 8; APush; AWrite 2 9; APushN 2; APushN 4; ARead 0; ARead 2; APop; ACount; AReset] in
  0 < 8 /\ 0 < 2 /\ 2 * (2 + requested ops) * (8 + 1) < 2^64 /\
  exists a0, arr_init (ok 0%nat) 8 2 = Ok (a0, true) /\
    match a_run ok 1 a0 ops with
    | Ok (_, outs) => outs = [AoPtr (Some 0); AoUnit; AoPtr (Some 1); AoUnit; AoPtr (Some 2); AoUnit; AoPtr (Some 3); AoPtr None;
                              AoVal (Some 7); AoVal (Some 9); AoFreed (Some None); AoNum 4; AoAll [Some 7; Some 8; Some 9; None]]
    | _ => False
    end.
Proof.
  repeat split. eexists. split; [reflexivity|]. vm_compute. reflexivity.
Qed.

(** With an initial size of 0 the first push never returns. *)
Theorem array_growth_terminates_refuted :
  forall (V : Type) (size : N), exists a0 : arr V,
    arr_init (fun _ => true) size 0 = Ok (a0, true) /\ arr_push (fun _ => true) a0 = Diverges.
Proof. intros V size. eexists. split; reflexivity. Qed.
Print Assumptions array_growth_terminates_refuted.

(** When the byte count of the new buffer overflows, pushn succeeds and its result points outside the buffer. *)
Theorem array_growth_overflow_refuted :
  forall (V : Type) (v : V), exists (size n : N) (a0 a1 : arr V) (p : N),
    0 < size /\ size < 2^64 /\ n < 2^64 /\
    arr_init (fun _ => true) size 1 = Ok (a0, true) /\ arr_pushn (fun _ => true) a0 n = Ok (a1, Some p) /\
    p < nelts a1 /\ arr_write a1 p v = Undef.
Proof.
  intros V v. exists (2^33), (2^31). eexists. eexists. exists 0.
  split; [reflexivity|]. split; [reflexivity|]. split; [reflexivity|]. split; [reflexivity|].
  split; [vm_compute; reflexivity|]. split; vm_compute; reflexivity.
Qed.
Print Assumptions array_growth_overflow_refuted.

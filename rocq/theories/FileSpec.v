(** * What a set of files is: a cache

    It knows some files, each with a number of users; those without users wait, in the
    order they were let go, until one must be dropped. *)

From Coq Require Import List Arith NArith ZArith Bool.
From Verif Require Import FileModel.
Import ListNotations.
Local Open Scope N_scope.

(** Paths in ASCII. *)
Definition ascii_path (p : list N) : bool := forallb (fun b => b <? 128) p.

Record entry : Type := mkE { e_path : list N; e_file : nat; e_fd : N; e_size : N; e_users : nat }.
(** [known]: all files in it; [waiting]: those without users; [made]: how many files
    there ever were. *)
Record cache : Type := mkCache { known : list entry; waiting : list nat; made : nat }.

Definition same_path (p q : list N) : bool := if list_eq_dec N.eq_dec p q then true else false.
Definition with_path (c : cache) (p : list N) : option entry := find (fun e => same_path (e_path e) p) (known c).
Definition entry_of (c : cache) (i : nat) : option entry := find (fun e => Nat.eqb (e_file e) i) (known c).

Definition recount (f : nat -> nat) (i : nat) (l : list entry) : list entry :=
  map (fun e => if Nat.eqb (e_file e) i then mkE (e_path e) (e_file e) (e_fd e) (e_size e) (f (e_users e)) else e) l.
Definition without (i : nat) (l : list nat) : list nat := filter (fun j => negb (Nat.eqb j i)) l.

(** Opening shares the file known under the path, or makes one. *)
Definition cache_open (c : cache) (p : list N) (o : os) : cache * option nat :=
  match with_path c p with
  | Some e => (mkCache (recount S (e_file e) (known c)) (without (e_file e) (waiting c)) (made c), Some (e_file e))
  | None =>
      match o with
      | Found fd size => (mkCache (known c ++ [mkE p (made c) fd size 1]) (waiting c) (S (made c)), Some (made c))
      | _ => (c, None)
      end
  end.
(** Closing lets a file go; without users it waits behind the others, and if there are
    too many files the one that waits longest is dropped. *)
Definition cache_close (max : N) (c : cache) (i : nat) : cache :=
  let k := recount pred i (known c) in
  match entry_of c i with
  | Some e =>
      if Nat.eqb (e_users e) 1 then
        let w := waiting c ++ [i] in
        if max <? N.of_nat (length k) then
          match w with
          | j :: w => mkCache (filter (fun e => negb (Nat.eqb (e_file e) j)) k) w (made c)
          | [] => mkCache k w (made c)
          end
        else mkCache k w (made c)
      else mkCache k (waiting c) (made c)
  | None => c
  end.
Definition cache_step (max : N) (c : cache) (x : call) : cache * option nat :=
  match x with Open p o => cache_open c p o | Close i => (cache_close max c i, None) end.
Fixpoint cache_run (max : N) (c : cache) (xs : list call) : cache * list (option nat) :=
  match xs with
  | [] => (c, [])
  | x :: r => let '(c, o) := cache_step max c x in let '(c, os) := cache_run max c r in (c, o :: os)
  end.
Definition empty : cache := mkCache [] [] 0.

(** A call that is allowed: the path is ASCII, there is memory for the tree node, the
    operating system returns a descriptor that is not open, and only a file that has
    users is closed. *)
Definition allowed (c : cache) (x : call) : Prop :=
  match x with
  | Open p o =>
      ascii_path p = true /\
      match o with NoNode _ _ => False | Found fd _ => ~ In fd (map e_fd (known c)) | _ => True end
  | Close i => exists e, In e (known c) /\ e_file e = i /\ (0 < e_users e)%nat
  end.
Fixpoint allowed_run (max : N) (c : cache) (xs : list call) : Prop :=
  match xs with [] => True | x :: r => allowed c x /\ allowed_run max (fst (cache_step max c x)) r end.

(** How often a file was opened and how often closed, by the answers to the calls. *)
Fixpoint opens (i : nat) (xs : list call) (os : list (option nat)) : nat :=
  match xs, os with
  | Open _ _ :: xs, Some j :: os => (if Nat.eqb j i then 1 else 0) + opens i xs os
  | _ :: xs, _ :: os => opens i xs os
  | _, _ => 0
  end.
Fixpoint closes (i : nat) (xs : list call) : nat :=
  match xs with [] => 0 | Close j :: xs => (if Nat.eqb j i then 1 else 0) + closes i xs | _ :: xs => closes i xs end.
Definition in_use (c : cache) : list entry := filter (fun e => Nat.ltb 0 (e_users e)) (known c).

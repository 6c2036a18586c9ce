(** * What passing messages between threads means *)
Require Import List Arith NArith Bool.
Require Import Verif.Base Verif.ThrModel.
Import ListNotations.
Open Scope N_scope.

(** The messages that a stream of bytes holds, 72 bytes each; what is behind the last whole one is not a message yet. *)
Fixpoint cut (fuel : nat) (l : bytes) : list bytes :=
  match fuel with
  | O => []
  | S fuel => if Nat.ltb (length l) 72 then [] else firstn 72 l :: cut fuel (skipn 72 l)
  end.
Definition messages (l : bytes) : list bytes := cut (length l) l.
(** Whom a message is for, and whom it is from: bytes 0 to 7 and 8 to 15 are pointers to names, least byte first. *)
Fixpoint number (l : bytes) : N := match l with [] => 0 | x :: l => x + 256 * number l end.
Definition is_name (strs : list bytes) (p : N) (n : bytes) : bool :=
  negb (p =? 0) && match nth_error strs (N.to_nat (p - 1)) with Some x => if list_eq_dec N.eq_dec x n then true else false | None => false end.
Definition sent_to (strs : list bytes) (n : bytes) (m : bytes) : bool := is_name strs (number (firstn 8 m)) n.
Definition sent_by (strs : list bytes) (n : bytes) (m : bytes) : bool := is_name strs (number (firstn 8 (skipn 8 m))) n.
(** What a message says, but for whom it is from. *)
Definition body (m : bytes) : bytes := firstn 8 m ++ skipn 16 m.

(** What thread [a] wrote in a history. *)
Fixpoint wrote (a : nat) (h : list op) : bytes :=
  match h with
  | [] => []
  | Write b l :: h => if Nat.eqb b a then l ++ wrote a h else wrote a h
  | _ :: h => wrote a h
  end.
Definition created (o : op) : list bytes := match o with Create n _ => [n] | _ => [] end.
(** The main thread is not told that thread [a] has ended. *)
Definition stays (a : nat) (o : op) : Prop :=
  match o with
  | Receive b _ e => b = a -> e = Later
  | Send b ws => b = a -> ~ In Broke ws
  | _ => True
  end.
(** What the socket of thread [b] was given, and whether there is something that was not taken from the socket of [a] or not given to that of [b]. *)
Definition given (s : st) (b : nat) : bytes := match thread s b with Some t => got t | None => [] end.
Definition all_read (s : st) (a : nat) : Prop := match thread s a with Some t => unread t = [] | None => True end.
Definition idle (s : st) (b : nat) : Prop := match thread s b with Some t => armed t = false | None => True end.

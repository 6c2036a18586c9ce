(** * Messages between threads: what the events and the outputs say *)

From Coq Require Import List Arith NArith Bool.
From Verif Require Import IothModel.
Import ListNotations.
Local Open Scope N_scope.

(** The messages sent to a side, and those its handler was given, each with its
    type and data, in order. *)
Definition sent_to (q : side) (out : list output) : list (nat * N * N) :=
  flat_map (fun o => match o with Queued to m ty d _ => if side_eqb to q then [(m, ty, d)] else [] | _ => [] end) out.
Definition handled (q : side) (out : list output) : list (nat * N * N) :=
  flat_map (fun o => match o with Called _ p m ty d => if side_eqb p q then [(m, ty, d)] else [] | _ => [] end) out.

Definition name (x : nat * N * N) : nat := fst (fst x).

(** The messages that wait for a side. *)
Definition waiting (st : state) (q : side) : list (nat * N * N) :=
  flat_map (fun m => match nth_error (s_heap st) m with Some x => [(m, m_type x, m_data x)] | None => [] end)
           (c_queue (get st q)).

(** What the calls of [mln_iothread_recv] for a side returned, added up. *)
Definition received (q : side) (out : list output) : N :=
  fold_right (fun o a => match o with Received _ p n => if side_eqb p q then n + a else a | _ => a end) 0 out.

(** What is known of one message. *)
Definition asked (m : nat) (o : output) : bool := match o with Queued _ m' _ _ true => Nat.eqb m m' | _ => false end.
Definition called (m : nat) (o : output) : bool := match o with Called _ _ m' _ _ => Nat.eqb m m' | _ => false end.
Definition left_ (m : nat) (o : output) : bool := match o with Left _ _ m' => Nat.eqb m m' | _ => false end.
Definition held (m : nat) (o : output) : bool := match o with Held _ m' => Nat.eqb m m' | _ => false end.
Definition released (m : nat) (o : output) : bool := match o with Released _ m' => Nat.eqb m m' | _ => false end.

(** How the functions are to be used, after [out]: [feedback] is 0 or 1; a message is
    held while its handler runs; and released once, after its handler has returned,
    if it was held and its sender asked for feedback. *)
Definition may (out : list output) (e : event) : bool :=
  match e with
  | CallSend _ _ _ _ feedback _ => feedback <=? 1
  | Hold _ m => existsb (called m) out && negb (existsb (left_ m) out)
  | Release _ m => existsb (left_ m) out && existsb (held m) out && existsb (asked m) out && negb (existsb (released m) out)
  | _ => true
  end.

Fixpoint careful (out : list output) (st : state) (es : list event) : bool :=
  match es with
  | [] => true
  | e :: es' => may out e && match step st e with Done st' o => careful (out ++ o) st' es' | _ => true end
  end.

(** A thread is in a call, and can go on with it. *)
Definition in_call (st : state) (t : nat) : Prop := exists f fs, nth_error (s_threads st) t = Some (f :: fs).
Definition can_go_on (st : state) (t : nat) : Prop :=
  exists e st' out, who e = t /\ match e with Lock _ _ | Wake _ | Next _ | Return _ => True | _ => False end /\ step st e = Done st' out.

(** No thread has called from a handler. *)
Definition flat (st : state) : Prop := Forall (fun fs : list frame => (length fs <= 1)%nat) (s_threads st).

(** The messages that the calls of [mln_iothread_send] made, with memory: type, data, side, and whether feedback is asked for. *)
Definition calls (es : list event) : list (N * N * side * bool) :=
  flat_map (fun e => match e with CallSend _ ty d to fb true => [(ty, d, to, negb (fb =? 0))] | _ => [] end) es.

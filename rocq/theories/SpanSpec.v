(** * Calls and the events they make *)

From Coq Require Import List Arith NArith Sorted.
From Verif Require Import SpanModel.
Import ListNotations.

Section Calls.

Variable site : Type.

(** A call: where, when it began and ended, and the calls made in it, in order. *)
Inductive call : Type :=
| Call (s : site) (t0 t1 : N) (subs : list call).

Definition own_event (e : event site) : bool :=
  match e with Enter _ own _ _ => own | Leave _ own _ => own end.

(** The events of the watched thread. *)
Definition own (es : list (event site)) : list (event site) := filter own_event es.

(** The events of a call that has ended. *)
Fixpoint events (c : call) : list (event site) :=
  match c with
  | Call s t0 t1 subs => Enter site true s t0 :: flat_map events subs ++ [Leave site true t1]
  end.

(** A call that goes on: where, since when, and the calls made in it that have
    ended. *)
Definition open_call : Type := (site * N * list call)%type.

(** The events when the calls [fs] go on, the outermost first. *)
Definition open_events (fs : list open_call) : list (event site) :=
  flat_map (fun f => match f with (s, t0, subs) => Enter site true s t0 :: flat_map events subs end) fs.

(** The tree then; the end of a call that goes on is zero. *)
Fixpoint open_tree (f : open_call) (fs : list open_call) : call :=
  match f with
  | (s, t0, subs) =>
      Call s t0 0 (subs ++ match fs with [] => [] | f' :: fs' => [open_tree f' fs'] end)
  end.

(** A tree as an indented list. *)
Fixpoint indented (level : nat) (c : call) : list (nat * (site * N * N)) :=
  match c with
  | Call s t0 t1 subs => (level, (s, t0, t1)) :: flat_map (indented (S level)) subs
  end.

(** What the callback of the dump sees: the level and the span. *)
Definition line (x : nat * node site) : nat * (site * N * N) :=
  (fst x, (n_site site (snd x), n_begin site (snd x), n_end site (snd x))).

Fixpoint size (c : call) : nat :=
  match c with Call _ _ _ subs => S (list_sum (map size subs)) end.

(** The events of the watched thread when the outermost call goes on; [d] calls
    go on at the beginning. *)
Fixpoint goes_on (d : nat) (es : list (event site)) : Prop :=
  match es with
  | [] => 1 <= d
  | Enter _ _ _ _ :: es' => goes_on (S d) es'
  | Leave _ _ _ :: es' => 2 <= d /\ goes_on (d - 1) es'
  end.

Definition time (e : event site) : N :=
  match e with Enter _ _ _ t => t | Leave _ _ t => t end.

(** The events of the watched thread when the outermost call ends with the last
    of them; [d] calls go on at the beginning. *)
Fixpoint ends (d : nat) (es : list (event site)) : Prop :=
  match es with
  | [] => False
  | Enter _ _ _ _ :: es' => ends (S d) es'
  | Leave _ _ _ :: es' => match es' with [] => d = 1 | _ => 2 <= d /\ ends (d - 1) es' end
  end.

(** The clock does not go back. *)
Definition ordered (es : list (event site)) : Prop := Sorted N.le (map time es).

Definition began (c : call) : N := match c with Call _ t0 _ _ => t0 end.
Definition ended (c : call) : N := match c with Call _ _ t1 _ => t1 end.
Definition subcalls (c : call) : list call := match c with Call _ _ _ subs => subs end.

(** The time spent. *)
Definition cost (c : call) : N := (ended c - began c)%N.

Fixpoint Nsum (l : list N) : N := match l with [] => 0 | x :: l' => x + Nsum l' end.

(** The call and all the calls made in it. *)
Fixpoint calls_of (c : call) : list call :=
  c :: match c with Call _ _ _ subs => flat_map calls_of subs end.

End Calls.

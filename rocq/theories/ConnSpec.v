(** * What sending and receiving mean *)
Require Import List Arith NArith Bool.
Require Import Verif.Base Verif.ConnModel.
Import ListNotations.

(** The bytes of a node that are still to be sent, and of a queue. *)
Definition unsent (x : option buf) : list N :=
  match x with
  | None => []
  | Some (Mem _ a _) => a
  | Some (File d p l _) => firstn (l - p) (skipn p d)
  end.
Definition pending (c : chain) : list N := concat (map unsent c).
(** A node, whatever part of it was sent. *)
Definition whole (x : option buf) : option buf :=
  match x with
  | None => None
  | Some (Mem b a m) => Some (Mem [] (b ++ a) m)
  | Some (File d _ l m) => Some (File d 0 l m)
  end.
(** The part of the file exists. *)
Definition sound (x : option buf) : Prop := match x with Some (File d p l _) => p <= l <= length d | _ => True end.
(** The node has a buffer with bytes to send. *)
Definition lively (x : option buf) : Prop := match x with Some b => some_left b = true | None => False end.
Definition marked (x : option buf) : Prop := match x with Some b => mark b = true | None => False end.
Definition in_memory (x : option buf) : Prop := match x with Some (File _ _ _ _) => False | _ => True end.

(** One step of the connection: the nodes [p] were sent and moved to the other queue, [g] was released, the rest is left, in order; the socket has
    taken exactly the bytes that are not to be sent any more, in order. *)
Definition goes (s s' : conn) (p g : chain) : Prop :=
  sent s' = sent s ++ p /\ map whole (snd s) = map whole (p ++ g ++ snd s') /\ pending p = [] /\ pending g = [] /\
  wire s' ++ pending (snd s') = wire s ++ pending (snd s).
(** The mark stands for the end of what a program waits for: the answer is that all was sent exactly when a marked buffer was sent, and nothing
    behind it was. *)
Definition verdict (r : code) (p : chain) : Prop :=
  match r with
  | FINISH => exists p' x, p = p' ++ [x] /\ marked x /\ Forall (fun y => ~ marked y) p'
  | CLOSED => False
  | _ => Forall (fun y => ~ marked y) p
  end.
(** The answers that were used. *)
Definition used (o o' u : list ans) : Prop := o = u ++ o'.

(** A history of a connection: chains are queued, sending is called, and what was sent is taken from its queue. The result is the connection and
    what was taken; [None] if a call does not return. *)
Inductive op := Queue (c : chain) | Send (o : list ans) | Take.
Fixpoint history (b : build) (ops : list op) (s : conn) (t : chain) : option (conn * chain) :=
  match ops with
  | [] => Some (s, t)
  | Queue c :: ops => history b ops (append_chain s c) t
  | Take :: ops => history b ops (remove_sent s) (t ++ sent s)
  | Send o :: ops => match conn_send b s o with Returns _ s o' => history b ops s t | _ => None end
  end.
(** Everything that was queued, in order. *)
Definition queued (ops : list op) : chain := concat (map (fun x => match x with Queue c => c | _ => [] end) ops).

(** A piece that was received: at most 1024 bytes, at least one. *)
Definition piece (x : option buf) : Prop := 1 <= length (unsent x) <= N.to_nat 1024 /\ ~ marked x.
(** The file system takes all of a piece, or fails. *)
Definition full (a : ans) : Prop := match a with Ok k => N.to_nat 1024 <= k | _ => True end.
(** The buffer to follow is the end of its file. *)
Definition at_end (c : chain) : Prop := match last_file c with Some (d, l) => l = length d | None => True end.

(** Builds without writev, and without sendfile unless the socket blocks. *)
Definition plain_build (b : build) : Prop := has_writev b = false /\ (has_sendfile b = false \/ blocks b = true).

(** * What file descriptors watched by an event loop are to do *)
Require Import List Arith NArith Bool.
Require Import Verif.Base Verif.EventModel.
Import ListNotations.

(** A history is a list of events, latest first. *)
Definition is (fd : nat) (fd' : nat) : bool := Nat.eqb fd' fd.
(** The handler that was given last for a kind of event, since the descriptor was cleared. *)
Fixpoint registered (h : list event) (fd : nat) (k : kind) : option nat :=
  match h with
  | [] => None
  | WasSet fd' f _ _ _ hd :: h => if is fd fd' && f k then hd else registered h fd k
  | Cleared fd' :: h => if is fd fd' then None else registered h fd k
  | _ :: h => registered h fd k
  end.
Fixpoint timeout_handler (h : list event) (fd : nat) : option nat :=
  match h with
  | [] => None
  | TimeoutHandler fd' hd :: h => if is fd fd' then hd else timeout_handler h fd
  | Cleared fd' :: h => if is fd fd' then None else timeout_handler h fd
  | _ :: h => timeout_handler h fd
  end.
(** When it times out: set when an event is set, gone when its events are served, when it has timed out and when it is cleared. *)
Fixpoint due (h : list event) (fd : nat) : option N :=
  match h with
  | [] => None
  | WasSet fd' _ _ _ t _ :: h => if is fd fd' then match t with Unmodified => due h fd | Unlimited => None | After ms now => Some (now + ms * 1000)%N end else due h fd
  | Cleared fd' :: h | Served fd' :: h | Expired fd' _ _ :: h => if is fd fd' then None else due h fd
  | _ :: h => due h fd
  end.
(** An event of that kind was reported by the system; no handler was called for it since, and the descriptor was not cleared. *)
Fixpoint pending (h : list event) (fd : nat) (k : kind) : bool :=
  match h with
  | [] => false
  | Reported fd' k' :: h => is fd fd' && kind_eqb k' k || pending h fd k
  | Called fd' k' _ :: h | Ignored fd' k' :: h => negb (is fd fd' && kind_eqb k' k) && pending h fd k
  | Cleared fd' :: h => negb (is fd fd') && pending h fd k
  | _ :: h => pending h fd k
  end.
(** The kinds that are to be watched: those of the last setting, and those appended. *)
Fixpoint wanted (h : list event) (fd : nat) (k : kind) : bool :=
  match h with
  | [] => false
  | WasSet fd' f _ a _ _ :: h => if is fd fd' then f k || a && wanted h fd k else wanted h fd k
  | Cleared fd' :: h => negb (is fd fd') && wanted h fd k
  | _ :: h => wanted h fd k
  end.
(** How often the handler may still be called, if that is limited: once for an event set with M_EV_ONESHOT when none was pending. *)
Fixpoint shots (h : list event) (fd : nat) (k : kind) : option nat :=
  match h with
  | [] => None
  | WasSet fd' f o a _ _ :: h => if is fd fd' then if f k then if o && negb (pending h fd k) then Some 1 else None else if a then shots h fd k else None else shots h fd k
  | Cleared fd' :: h => if is fd fd' then None else shots h fd k
  | Called fd' k' _ :: h => if is fd fd' && kind_eqb k' k then option_map pred (shots h fd k) else shots h fd k
  | _ :: h => shots h fd k
  end.

(** When an event may happen, given what has happened. A handler is called if it is the one given last, and the event was reported; for each report once.
    It is called for a timeout when the time has come, of those due first; a pass over the timeouts that ends has left none that was due. *)
Definition allowed (bound : nat) (h : list event) (e : event) : Prop :=
  match e with
  | Called fd k hd => registered h fd k = Some hd /\ pending h fd k = true
  | Ignored fd k => registered h fd k = None /\ pending h fd k = true
  | Expired fd hd now => timeout_handler h fd = hd /\ exists t, due h fd = Some t /\ (t <= now)%N /\ forall fd' t', fd' < bound -> due h fd' = Some t' -> (t <= t')%N
  | NoneDue now => forall fd t, fd < bound -> due h fd = Some t -> (now < t)%N
  | _ => True
  end.
Fixpoint proper (bound : nat) (h : list event) : Prop := match h with [] => True | e :: h => allowed bound h e /\ proper bound h end.
(** No more calls than limited, but for errors. *)
Fixpoint limited (h : list event) : Prop :=
  match h with
  | [] => True
  | e :: h => match e with Called fd k _ => k = Err \/ shots h fd k <> Some 0 | _ => True end /\ limited h
  end.
(** Nothing that was reported is forgotten: when the system is asked again, all of it was handled. *)
Fixpoint thorough (h : list event) : Prop :=
  match h with
  | [] => True
  | e :: h => match e with Polled => forall fd k, pending h fd k = false | _ => True end /\ thorough h
  end.

(** There is one dispatcher, the thread 0. *)
Definition solo (l : label) : Prop :=
  match l with
  | Start t | Busy t | Go t | Return_ t | Clock t _ | Look t _ | NoTimeout t | Poll t _ | Idle t => t = 0
  | _ => True
  end.
(** Nobody else holds the lock when the dispatcher wants it, and the loop is not to end. *)
Definition undisturbed (l : label) : Prop := match l with Busy _ | Break => False | _ => True end.
(** What is set is not for one shot, and for some kind of event. *)
Definition persistent (l : label) : Prop := match l with Set_ _ f o _ _ _ => o = false /\ some_of f = true | _ => True end.

(** Model of the timers of src/mln_event.c, for any number of threads.

    Sections under [timer_lock] are single steps; between them every thread may take a step. The heap is the list of its timers: the steps take
    any timer with the least end, which is what src/mln_fheap.c answers (FheapProps). Times are microseconds. Memory allocation succeeds. *)
Require Import List Arith NArith Bool.
Require Import Verif.Base.
Import ListNotations.
Local Open Scope N_scope.

(** include/mln_event.h:94-98 [mln_event_tm_t]; a timer has a name, its node; the handler with its data is a number. *)
Record timer := mkT { node : nat; end_tm : N; handler : option nat }.
(** A thread in mln_event_dispatch is elsewhere, or in mln_event_timer_process at the label [lp], or runs a handler. [now] is the time of the pass. *)
Inductive tpc := Elsewhere | Scan (now : N) | Running (id : nat) (now : N).
(** The heap, the names used so far, [is_break], and the threads. *)
Record tstate := mkTS { heap : list timer; fresh : nat; broken : bool; threads : nat -> tpc }.
Definition timers_new : tstate := mkTS [] 0 false (fun _ => Elsewhere).

(** src/mln_event.c:229: [msec * 1000] is a product of 32 bits. *)
Definition ends (now msec : N) : N := (now + msec * 1000 mod 2 ^ 32) mod 2 ^ 64.

(** What happens: a call of the interface, in a handler or in another thread, or a step of a thread. [Busy]: the lock is not free. *)
Inductive label := Set_ (msec now : N) (h : option nat) | Cancel (id : nat) | Break | Enter (t : nat) (now : N) | Busy (t : nat) | Take (t id : nat) | Nothing (t : nat) | Return_ (t : nat).
(** What can be seen. *)
Inductive event := WasSet (id : nat) (msec now : N) (h : option nat) | Cancelled (id : nat) | Called (id : nat) (h : nat) (now : N) | Dropped (id : nat) | Passed (now : N).

Definition upd {A} (f : nat -> A) (x : nat) (v : A) : nat -> A := fun y => if Nat.eqb y x then v else f y.
Definition without (id : nat) (l : list timer) : list timer := filter (fun x => negb (Nat.eqb (node x) id)) l.
Definition find (id : nat) (l : list timer) : option timer := List.find (fun x => Nat.eqb (node x) id) l.
Definition set_pc (s : tstate) (t : nat) (p : tpc) : tstate := mkTS (heap s) (fresh s) (broken s) (upd (threads s) t p).

(** [None]: the step cannot be taken, or breaks the rules. *)
Definition step (s : tstate) (l : label) : option (tstate * list event) :=
  match l with
  (** src/mln_event.c:225-257 mln_event_timer_set *)
  | Set_ msec now h => Some (mkTS (mkT (fresh s) (ends now msec) h :: heap s) (S (fresh s)) (broken s) (threads s), [WasSet (fresh s) msec now h])
  (** src/mln_event.c:259-269 mln_event_timer_cancel: the rule is that the timer has not gone off (docs/book/en/event.md, mln_event_timer_cancel) *)
  | Cancel id => match find id (heap s) with None => None | Some _ => Some (mkTS (without id (heap s)) (fresh s) (broken s) (threads s), [Cancelled id]) end
  (** include/mln_event.h:145 mln_event_break_set *)
  | Break => Some (mkTS (heap s) (fresh s) true (threads s), [])
  (** src/mln_event.c:271-278 mln_event_timer_process: the time is read once. *)
  | Enter t now => match threads s t with Elsewhere => Some (set_pc s t (Scan now), []) | _ => None end
  (** src/mln_event.c:280-284: the lock is not free. *)
  | Busy t => match threads s t with Scan _ => Some (set_pc s t Elsewhere, []) | _ => None end
  (** src/mln_event.c:286-300: there is no timer, or its time has not come. *)
  | Nothing t =>
      match threads s t with
      | Scan now => if forallb (fun x => now <? end_tm x) (heap s) then Some (set_pc s t Elsewhere, [Passed now]) else None
      | _ => None
      end
  (** src/mln_event.c:286-313: a timer with the least end is taken. *)
  | Take t id =>
      match threads s t, find id (heap s) with
      | Scan now, Some x =>
          if forallb (fun y => end_tm x <=? end_tm y) (heap s) && (end_tm x <=? now) then
            match handler x with
            | Some h => Some (mkTS (without id (heap s)) (fresh s) (broken s) (upd (threads s) t (Running id now)), [Called id h now])
            | None => Some (mkTS (without id (heap s)) (fresh s) (broken s) (upd (threads s) t (if broken s then Elsewhere else Scan now)), [Dropped id])
            end
          else None
      | _, _ => None
      end
  (** src/mln_event.c:315-318 *)
  | Return_ t => match threads s t with Running _ now => Some (set_pc s t (if broken s then Elsewhere else Scan now), []) | _ => None end
  end.
(** A schedule; the events come latest first. *)
Fixpoint run (s : tstate) (h : list event) (ls : list label) : option (tstate * list event) :=
  match ls with
  | [] => Some (s, h)
  | l :: ls => match step s l with Some (s, e) => run s (e ++ h) ls | None => None end
  end.

(** * What timers are to do *)
Require Import List Arith NArith Bool.
Require Import Verif.Base Verif.TimerModel.
Import ListNotations.
Local Open Scope N_scope.

(** A history is a list of events, latest first. A timer is waiting if it was set, and not called, dropped or cancelled. *)
Definition set_in (h : list event) (id : nat) (msec now : N) (hd : option nat) : Prop := In (WasSet id msec now hd) h.
Definition gone_in (h : list event) (id : nat) : Prop := In (Cancelled id) h \/ In (Dropped id) h \/ exists hd now, In (Called id hd now) h.
Definition waiting (h : list event) (id : nat) (due : N) : Prop := exists msec now hd, set_in h id msec now hd /\ due = now + msec * 1000 /\ ~ gone_in h id.
(** When an event may happen, given what has happened. A handler is called for a timer that was set with it and is waiting, when its time has
    come, and no waiting timer is due before it. A pass at the time [now] that ends has left no waiting timer that was due. *)
Definition allowed (h : list event) (e : event) : Prop :=
  match e with
  | WasSet id _ _ _ => forall msec now hd, ~ set_in h id msec now hd
  | Cancelled id => exists due, waiting h id due
  | Called id hd now => exists msec now0, set_in h id msec now0 (Some hd) /\ ~ gone_in h id /\ now0 + msec * 1000 <= now /\ (forall id' due, waiting h id' due -> now0 + msec * 1000 <= due)
  | Dropped id => exists msec now0, set_in h id msec now0 None /\ ~ gone_in h id
  | Passed now => forall id due, waiting h id due -> now < due
  end.
Fixpoint proper (h : list event) : Prop := match h with [] => True | e :: h => allowed h e /\ proper h end.
(** Timers of less than 4294968 milliseconds, set at times below 2^63. *)
Definition short (l : label) : Prop := match l with Set_ msec now _ => msec < 4294968 /\ now < 2 ^ 63 | _ => True end.

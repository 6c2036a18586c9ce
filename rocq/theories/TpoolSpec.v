(** * Thread pool: what the events and the outputs say *)

From Coq Require Import List NArith Bool.
From Verif Require Import TpoolModel.
Import ListNotations.
Local Open Scope N_scope.

(** The resources put into the pool, in order; NULL is not a resource. *)
Definition some (d : N) : list N := if d =? 0 then [] else [d].
Definition added (es : list event) : list N :=
  flat_map (fun e => match e with
                     | Add _ _ NoResource _ => []
                     | Add _ d _ _ => some d
                     | _ => []
                     end) es.

(** The resources handed to a worker, in order; those the pool released when it
    was freed; those a worker released; those whose handler returned. *)
Definition took (out : list output) : list N := flat_map (fun o => match o with Took _ d => [d] | _ => [] end) out.
Definition dropped (out : list output) : list N := flat_map (fun o => match o with Dropped d => some d | _ => [] end) out.
Definition freed (out : list output) : list N := flat_map (fun o => match o with Freed _ d => [d] | _ => [] end) out.
Definition finished (out : list output) : list N := flat_map (fun o => match o with Finished _ d => [d] | _ => [] end) out.

(** What is still in the pool, and what workers have at the moment. *)
Definition queued (st : state) : list N := flat_map some (p_queue (s_pool st)).
Definition in_hand (st : state) : list N :=
  flat_map (fun w => match w_place w with Processing | Leaving => some (w_data w) | _ => [] end) (s_workers st).

(** The workers that take part, and those not busy. *)
Definition member (w : worker) : bool := match w_place w with Leaving | Gone => false | _ => true end.
Definition idle_member (w : worker) : bool :=
  match w_place w with Waiting | Unborn => true | Locking _ => w_idle w | _ => false end.
Definition count (f : worker -> bool) (ws : list worker) : N := N.of_nat (length (filter f ws)).

(** Histories without failures, and without threads that end in the handler. *)
Definition no_die (e : event) : Prop := match e with Die _ => False | _ => True end.
Definition smooth (e : event) : Prop :=
  match e with
  | Die _ => False
  | Add _ _ NoFailure _ => True
  | Add _ _ _ _ => False
  | _ => True
  end.

(** What the workers do by themselves. *)
Definition own (e : event) : Prop :=
  match e with Run _ | TimeOut _ | Wake _ | Finish _ | Reap _ => True | _ => False end.

(** * Thread pool (src/mln_thread_pool.c)

    The threads are interleaved.  An event is one section that holds the mutex,
    or one step outside it that others can see.  What is not decided by the code
    - which waiting thread a signal wakes, whether a wait times out or ends for no
    reason, whether an allocation or [pthread_create] fails - is decided by the
    events, so that a theorem about all event lists is one about all schedules.

    Simplifications: a resource is a number, 0 for NULL; the queue of resources
    and the chain of members are lists ([0] in the chain is the member of the main
    thread, [S t] that of worker [t]); the number of queued resources does not
    reach 2^64; [free_handler] is given; the timed wait fails with a time-out
    only; no thread forks or is cancelled while it waits. *)

From Coq Require Import List Arith NArith Bool.
From Verif Require Import Base.
Import ListNotations.
Local Open Scope N_scope.

(** [++] and [--] on [mln_u32_t]. *)
Definition inc (x : N) : N := (x + 1) mod 2 ^ 32.
Definition dec (x : N) : N := (x + (2 ^ 32 - 1)) mod 2 ^ 32.

(** Where a worker is in [child_thread_launcher]. *)
Inductive place : Type :=
| Locking (timeout : bool)   (* about to hold the mutex and reach the label [again], with that value of [timeout] *)
| Waiting                    (* in [pthread_cond_timedwait] *)
| Processing                 (* in [process_handler] *)
| Leaving                    (* in [mln_thread_pool_member_exit], after the mutex is released *)
| Gone
| Unborn.                    (* [pthread_create] has failed *)

(** include/mln_thread_pool.h:29-38: [mln_thread_pool_member_t] *)
Record worker : Type := mkW {
  w_place : place;
  w_idle : bool;
  w_data : N
}.

(** include/mln_thread_pool.h:40-57: [struct mln_thread_pool_s] *)
Record pool : Type := mkP {
  p_queue : list N;
  p_nres : N;
  p_chain : list nat;
  p_max : N;
  p_idle : N;
  p_counter : N;
  p_quit : bool
}.

(** Where the main thread is in [mln_thread_pool_run]. *)
Inductive phase : Type :=
| InHandler    (* in [main_process_handler] *)
| Polling      (* in the loop after it *)
| Exiting      (* the loop has ended *)
| Closed.      (* the pool has been freed *)

Record state : Type := mkS {
  s_pool : pool;
  s_workers : list worker;
  s_main : phase
}.

Inductive failure : Type :=
| NoFailure
| NoResource     (* no memory for the resource *)
| NoMember       (* no memory for the member, if one is made *)
| NoThread.      (* [pthread_create] fails, if it is called *)

Inductive event : Type :=
| Add (who : option nat) (data : N) (f : failure) (woken : option nat)  (* [None]: the main thread *)
| Quit (who : option nat)
| Info (who : option nat)
| Run (t : nat)          (* a worker gets the mutex *)
| TimeOut (t : nat)
| Wake (t : nat)         (* a wait ends without a signal *)
| Finish (t : nat)       (* [process_handler] returns *)
| Die (t : nat)          (* [process_handler] ends its thread *)
| Reap (t : nat)         (* the end of [mln_thread_pool_member_exit] *)
| Return                 (* [main_process_handler] returns *)
| Poll
| Close.

Inductive output : Type :=
| Took (t : nat) (data : N)                       (* [process_handler] is called *)
| Finished (t : nat) (data : N)
| Freed (t : nat) (data : N)                      (* [free_handler] is called by a worker *)
| Dropped (data : N)                              (* [free_handler] is called by [mln_thread_pool_free] *)
| Returned (ok : bool)                            (* what [mln_thread_pool_resource_add] says *)
| Told (max idle cur : N) (res : N).

Inductive result : Type :=
| Done (st : state) (out : list output)
| Disabled               (* the event cannot happen here *)
| Fault.                 (* freed memory is used, or an assertion fails *)

Definition get (st : state) (t : nat) : option worker := nth_error (s_workers st) t.
Definition set (ws : list worker) (t : nat) (w : worker) : list worker := upd ws t w.

(** src/mln_thread_pool.c:80-96: [mln_thread_pool_member_join], with memory. *)
Definition member_join (p : pool) (m : nat) : pool :=
  mkP (p_queue p) (p_nres p) (p_chain p ++ [m]) (p_max p) (inc (p_idle p)) (inc (p_counter p)) (p_quit p).

(** src/mln_thread_pool.c:98-111: [mln_thread_pool_member_exit] up to the unlocking. *)
Definition member_exit (p : pool) (m : nat) (idle : bool) : pool :=
  mkP (p_queue p) (p_nres p) (filter (fun x => negb (Nat.eqb x m)) (p_chain p)) (p_max p)
      (if idle then dec (p_idle p) else p_idle p) (dec (p_counter p)) (p_quit p).

(** src/mln_thread_pool.c:148-215: [mln_thread_pool_new], without failures. *)
Definition pool_new (max : N) : pool := member_join (mkP [] 0 [] max 0 0 false) 0.

(** src/mln_thread_pool.c:311-324: [mln_thread_pool_run] up to the call of
    [main_process_handler]. *)
Definition init (max : N) : state := mkS (pool_new max) [] InHandler.

(** Who can call the functions of the pool: the main thread in its handler, and a
    worker in its own. *)
Definition may_call (st : state) (who : option nat) : bool :=
  match who with
  | None => match s_main st with InHandler => true | _ => false end
  | Some t => match get st t with
              | Some w => match w_place w with Processing => true | _ => false end
              | None => false
              end
  end.

Definition is_waiting (w : worker) : bool := match w_place w with Waiting => true | _ => false end.

(** [pthread_cond_signal] wakes a waiting thread, if there is one. *)
Definition signal (ws : list worker) (woken : option nat) : option (list worker) :=
  match woken with
  | None => if existsb is_waiting ws then None else Some ws
  | Some t =>
      w <- nth_error ws t ;;
      if is_waiting w then Some (set ws t (mkW (Locking false) (w_idle w) (w_data w))) else None
  end.

(** src/mln_thread_pool.c:237-283: [mln_thread_pool_resource_add] *)
Definition resource_add (st : state) (data : N) (f : failure) (woken : option nat) : result :=
  match f with
  | NoResource => Done st [Returned false]
  | _ =>
      let p := s_pool st in
      let p := mkP (p_queue p ++ [data]) (p_nres p + 1) (p_chain p) (p_max p) (p_idle p) (p_counter p) (p_quit p) in
      let ws := s_workers st in
      let finish p ws :=
        match signal ws woken with
        | Some ws => Done (mkS p ws (s_main st)) [Returned true]
        | None => Disabled
        end in
      if (p_idle p <=? 1) && (p_counter p <? inc (p_max p)) then
        match f with
        | NoMember => Done (mkS p ws (s_main st)) [Returned false]
        | NoThread => Done (mkS (member_join p (S (length ws))) (ws ++ [mkW Unborn true 0]) (s_main st)) [Returned false]
        | _ => finish (member_join p (S (length ws))) (ws ++ [mkW (Locking false) true 0])
        end
      else finish p ws
  end.

(** src/mln_thread_pool.c:285-306: [mln_thread_pool_resource_remove]; the second
    result is the member's [data]. *)
Fixpoint remove (q : list N) (n : N) (data : N) : list N * N * N :=
  match q with
  | [] => ([], n, data)
  | d :: q' => if d =? 0 then remove q' (n - 1) d else (q', n - 1, d)
  end.

(** src/mln_thread_pool.c:361-386: from the label [again] of
    [child_thread_launcher] until the mutex is released; the member's [idle] is
    set again after a call of [process_handler]. *)
Definition launch (st : state) (t : nat) (w : worker) (timeout : bool) : result :=
  let p := s_pool st in
  let p := if w_idle w then p
           else mkP (p_queue p) (p_nres p) (p_chain p) (p_max p) (inc (p_idle p)) (p_counter p) (p_quit p) in
  let leave p data := Done (mkS (member_exit p (S t) true) (set (s_workers st) t (mkW Leaving true data)) (s_main st)) [] in
  if p_quit p then leave p (w_data w)
  else
    match remove (p_queue p) (p_nres p) 0 with
    | (q, n, data) =>
        if data =? 0 then
          let p := mkP q n (p_chain p) (p_max p) (p_idle p) (p_counter p) (p_quit p) in
          if timeout then leave p 0
          else Done (mkS p (set (s_workers st) t (mkW Waiting true 0)) (s_main st)) []
        else
          Done (mkS (mkP q n (p_chain p) (p_max p) (dec (p_idle p)) (p_counter p) (p_quit p))
                    (set (s_workers st) t (mkW Processing false data)) (s_main st)) [Took t data]
    end.

Definition is_closed (st : state) : bool := match s_main st with Closed => true | _ => false end.

(** src/mln_thread_pool.c:345-397: [child_thread_launcher] *)
Definition worker_step (st : state) (t : nat) (e : event) : result :=
  match get st t with
  | None => Disabled
  | Some w =>
      match e, w_place w with
      | Run _, Locking timeout => if is_closed st then Fault else launch st t w timeout
      | TimeOut _, Waiting =>
          if is_closed st then Fault
          else Done (mkS (s_pool st) (set (s_workers st) t (mkW (Locking true) (w_idle w) (w_data w))) (s_main st)) []
      | Wake _, Waiting =>
          if is_closed st then Fault
          else Done (mkS (s_pool st) (set (s_workers st) t (mkW (Locking false) (w_idle w) (w_data w))) (s_main st)) []
      | Finish _, Processing =>
          Done (mkS (s_pool st) (set (s_workers st) t (mkW (Locking false) (w_idle w) 0)) (s_main st)) [Finished t (w_data w)]
      | Die _, Processing =>
          if is_closed st then Fault
          else Done (mkS (member_exit (s_pool st) (S t) (w_idle w)) (set (s_workers st) t (mkW Leaving (w_idle w) (w_data w))) (s_main st)) []
      | Reap _, Leaving =>
          (* src/mln_thread_pool.c:71-78: [mln_thread_pool_member_free] looks at the pool if there is data *)
          if w_data w =? 0 then Done (mkS (s_pool st) (set (s_workers st) t (mkW Gone false 0)) (s_main st)) []
          else if is_closed st then Fault
          else Done (mkS (s_pool st) (set (s_workers st) t (mkW Gone false 0)) (s_main st)) [Freed t (w_data w)]
      | _, _ => Disabled
      end
  end.

(** src/mln_thread_pool.c:399-408: [mln_thread_quit] *)
Definition thread_quit (st : state) : state :=
  let p := s_pool st in
  mkS (mkP (p_queue p) (p_nres p) (p_chain p) (p_max p) (p_idle p) (p_counter p) true) (s_workers st) (s_main st).

(** src/mln_thread_pool.c:410-424: [mln_thread_resource_info] *)
Definition resource_info (st : state) : output :=
  let p := s_pool st in Told (p_max p) (p_idle p) (p_counter p) (p_nres p).

(** src/mln_thread_pool.c:326-338: one turn of the loop of [mln_thread_pool_run]. *)
Definition poll (st : state) : state :=
  if p_counter (s_pool st) <=? 1 then mkS (s_pool st) (s_workers st) Exiting
  else mkS (s_pool st)
           (map (fun w => if is_waiting w then mkW (Locking false) (w_idle w) (w_data w) else w) (s_workers st))
           Polling.

(** src/mln_thread_pool.c:339-343: the end of [mln_thread_pool_run], with
    src/mln_thread_pool.c:217-231: [mln_thread_pool_free]. *)
Definition close (st : state) : result :=
  let p := member_exit (s_pool st) 0 true in
  let out := map Dropped (p_queue p) in
  match p_chain p with
  | [] =>
      if (p_counter p =? 0) && (p_idle p =? 0)
      then Done (mkS (mkP [] (p_nres p) [] (p_max p) 0 0 (p_quit p)) (s_workers st) Closed) out
      else Fault
  | _ => Fault
  end.

Definition step (st : state) (e : event) : result :=
  match e with
  | Add who data f woken => if may_call st who then resource_add st data f woken else Disabled
  | Quit who => if may_call st who then Done (thread_quit st) [] else Disabled
  | Info who => if may_call st who then Done st [resource_info st] else Disabled
  | Run t | TimeOut t | Wake t | Finish t | Die t | Reap t => worker_step st t e
  | Return => match s_main st with
              | InHandler => let st := thread_quit st in Done (mkS (s_pool st) (s_workers st) Polling) []
              | _ => Disabled
              end
  | Poll => match s_main st with Polling => Done (poll st) [] | _ => Disabled end
  | Close => match s_main st with Exiting => close st | _ => Disabled end
  end.

Fixpoint run (st : state) (es : list event) : result :=
  match es with
  | [] => Done st []
  | e :: es' =>
      match step st e with
      | Done st' out =>
          match run st' es' with
          | Done st'' out' => Done st'' (out ++ out')
          | r => r
          end
      | r => r
      end
  end.

(** * Messages between I/O threads and user threads (src/mln_iothread.c)

    The threads are interleaved: an event is one step of one thread, and what the
    code does not decide - who gets a mutex, whether an allocation or a write to
    the socket fails, what handlers do - is decided by the events.  A theorem about
    all event lists is one about all schedules.

    Simplifications: a message is an index into the list of all messages ever made;
    its data is a number; the chain of messages is a list; the sockets are counts
    of unread bytes; [handler] is given; the threads run for ever
    ([mln_iothread_destroy] is not modelled). *)

From Coq Require Import List Arith NArith Bool.
From Verif Require Import Base.
Import ListNotations.
Local Open Scope N_scope.

(** include/mln_iothread.h:15-18: [mln_iothread_ep_type_t] *)
Inductive side : Type := Io | User.

Definition side_eqb (a b : side) : bool :=
  match a, b with Io, Io => true | User, User => true | _, _ => false end.

(** include/mln_iothread.h:23-32: [struct mln_iothread_msg_s]; [m_mutex] is [None]
    when it was not initialised and tells else whether it is locked; [m_live] is
    false once the message is freed. *)
Record msg : Type := mkM {
  m_feedback : bool;
  m_hold : bool;
  m_type : N;
  m_data : N;
  m_mutex : option bool;
  m_live : bool
}.

(** include/mln_iothread.h:34-48: one half of [struct mln_iothread_s]: the messages
    for one side, who holds its lock, and the bytes its socket can read. *)
Record chan : Type := mkC {
  c_queue : list nat;
  c_owner : option nat;
  c_bytes : N
}.

(** Where a thread is in [mln_iothread_send] or [mln_iothread_recv].  [first] tells
    whether there was a message when the lock was taken ([pos] in the code), [n]
    counts the messages. *)
Inductive frame : Type :=
| SendLock (to : side) (m : nat) (ty data : N) (fb : bool)   (* about to lock the other side's lock *)
| SendWait (m : nat)                                         (* about to lock the message's mutex again *)
| RecvLock (q : side)                                        (* about to lock *)
| Recv (q : side) (first : bool) (n : N)                     (* at the head of the loop, holding the lock *)
| Handle (q : side) (first : bool) (n : N) (m : nat).        (* in the handler, holding the lock *)

Record state : Type := mkS {
  s_heap : list msg;
  s_io : chan;
  s_user : chan;
  s_threads : list (list frame)      (* innermost call first; no frame: in the thread's own code *)
}.

Inductive event : Type :=
| CallSend (t : nat) (ty data : N) (to : side) (feedback : N) (memory : bool)
| CallRecv (t : nat) (from : side)
| Hold (t : nat) (m : nat)
| Release (t : nat) (m : nat)
| Lock (t : nat) (sent : bool)    (* the lock waited for is free; [sent]: the socket takes a byte, if one is sent *)
| Wake (t : nat)                  (* the message's mutex is free *)
| Next (t : nat)                  (* once round the loop of [mln_iothread_recv] *)
| Return (t : nat).               (* the handler returns *)

Inductive output : Type :=
| Refused (t : nat)                                    (* [mln_iothread_send] returned -1 *)
| Full (t : nat) (m : nat)                             (* it returned 1 *)
| Queued (to : side) (m : nat) (ty data : N) (fb : bool) (* it put the message into the chain, and let go the lock *)
| Sent (t : nat) (m : nat) (fb : bool)                 (* it returned 0 *)
| Called (t : nat) (q : side) (m : nat) (ty data : N)  (* the handler is called *)
| Left (t : nat) (q : side) (m : nat)                  (* the handler has returned, and the message is disposed of *)
| Held (t : nat) (m : nat)
| Released (t : nat) (m : nat)
| Received (t : nat) (q : side) (n : N).               (* [mln_iothread_recv] returned [n] *)

Inductive result : Type :=
| Done (st : state) (out : list output)
| Disabled          (* the event cannot happen here *)
| Fault.            (* freed memory is used, or a mutex not locked or not initialised is unlocked *)

Definition get (st : state) (q : side) : chan := match q with Io => s_io st | User => s_user st end.
Definition put (st : state) (q : side) (c : chan) : state :=
  match q with
  | Io => mkS (s_heap st) c (s_user st) (s_threads st)
  | User => mkS (s_heap st) (s_io st) c (s_threads st)
  end.
Definition set_thread (st : state) (t : nat) (fs : list frame) : state :=
  mkS (s_heap st) (s_io st) (s_user st) (upd (s_threads st) t fs).
Definition set_msg (st : state) (m : nat) (x : msg) : state :=
  mkS (upd (s_heap st) m x) (s_io st) (s_user st) (s_threads st).

(** A message whose memory can still be used. *)
Definition msg_at (st : state) (m : nat) : option msg :=
  match nth_error (s_heap st) m with
  | Some x => if m_live x then Some x else None
  | None => None
  end.

(** src/mln_iothread.c:176-194: [mln_iothread_msg_new], with memory; [feedback] is a
    field of one bit.  src/mln_iothread.c:106-107: with feedback the sender locks
    the message. *)
Definition msg_new (ty data : N) (feedback : N) : msg :=
  mkM (N.odd feedback) false ty data (if feedback =? 0 then None else Some true) true.

(** src/mln_iothread.c:196-204: [mln_iothread_msg_free] *)
Definition msg_free (x : msg) : msg := mkM (m_feedback x) (m_hold x) (m_type x) (m_data x) (m_mutex x) false.

(** [pthread_mutex_unlock] on the mutex of a message. *)
Definition unlock (x : msg) : option msg :=
  match m_mutex x with
  | Some true => Some (mkM (m_feedback x) (m_hold x) (m_type x) (m_data x) (Some false) (m_live x))
  | _ => None
  end.

(** src/mln_iothread.c:82-107: [mln_iothread_send] up to the lock of the chain. *)
Definition call_send (st : state) (t : nat) (fs : list frame) (ty data : N) (to : side) (feedback : N) (memory : bool) : result :=
  if memory then
    let m := length (s_heap st) in
    let st := mkS (s_heap st ++ [msg_new ty data feedback]) (s_io st) (s_user st) (s_threads st) in
    Done (set_thread st t (SendLock to m ty data (negb (feedback =? 0)) :: fs)) []
  else Done st [Refused t].

(** src/mln_iothread.c:109-121: [mln_iothread_send] while it holds the lock.  The
    byte goes to the socket that the threads of the side [to] read. *)
Definition lock_send (st : state) (t : nat) (fs : list frame) (to : side) (m : nat) (ty data : N) (fb sent : bool) : result :=
  let c := get st to in
  let alone := match c_queue c with [] => true | _ => false end in
  if alone && negb sent then
    match msg_at st m with
    | None => Fault
    | Some x =>
        match (if fb then unlock x else Some x) with
        | None => Fault
        | Some x => Done (set_thread (set_msg st m (msg_free x)) t fs) [Full t m]
        end
    end
  else
    let c := mkC (c_queue c ++ [m]) None (if alone then c_bytes c + 1 else c_bytes c) in
    let st := put st to c in
    if fb then Done (set_thread st t (SendWait m :: fs)) [Queued to m ty data fb]
    else Done (set_thread st t fs) [Queued to m ty data fb; Sent t m false].

(** src/mln_iothread.c:123-129: the end of [mln_iothread_send]; the message is locked
    and let go again. *)
Definition wake (st : state) (t : nat) (fs : list frame) (m : nat) : result :=
  match msg_at st m with
  | None => Fault
  | Some x =>
      match m_mutex x with
      | None => Fault
      | Some true => Disabled
      | Some false => Done (set_thread (set_msg st m (msg_free x)) t fs) [Sent t m true]
      end
  end.

(** src/mln_iothread.c:139-149: [from] is the other side than the one the messages
    are for. *)
Definition recv_side (from : side) : side := match from with Io => User | User => Io end.

(** src/mln_iothread.c:151-153: the lock, and [pos]. *)
Definition lock_recv (st : state) (t : nat) (fs : list frame) (q : side) : result :=
  let c := get st q in
  let first := match c_queue c with [] => false | _ => true end in
  Done (set_thread (put st q (mkC (c_queue c) (Some t) (c_bytes c))) t (Recv q first 0 :: fs)) [].

(** src/mln_iothread.c:154-157 and 167-172: the message at the head is taken and the
    handler called; without one the byte is read - if [pos] is no longer the head,
    which is NULL - and the lock let go. *)
Definition next (st : state) (t : nat) (fs : list frame) (q : side) (first : bool) (n : N) : result :=
  let c := get st q in
  match c_queue c with
  | m :: rest =>
      match msg_at st m with
      | None => Fault
      | Some x =>
          Done (set_thread (put st q (mkC rest (c_owner c) (c_bytes c))) t (Handle q first n m :: fs))
               [Called t q m (m_type x) (m_data x)]
      end
  | [] =>
      let bytes := if first then c_bytes c - 1 else c_bytes c in
      Done (set_thread (put st q (mkC [] None bytes)) t fs) [Received t q n]
  end.

(** src/mln_iothread.c:158-164: after the handler. *)
Definition handler_return (st : state) (t : nat) (fs : list frame) (q : side) (first : bool) (n : N) (m : nat) : result :=
  match msg_at st m with
  | None => Fault
  | Some x =>
      match (if m_feedback x then if m_hold x then Some x else unlock x else Some (msg_free x)) with
      | None => Fault
      | Some x => Done (set_thread (set_msg st m x) t (Recv q first (n + 1) :: fs)) [Left t q m]
      end
  end.

(** include/mln_iothread.h:51: [mln_iothread_msg_hold] *)
Definition hold (st : state) (t m : nat) : result :=
  match msg_at st m with
  | None => Fault
  | Some x => Done (set_msg st m (mkM (m_feedback x) true (m_type x) (m_data x) (m_mutex x) (m_live x))) [Held t m]
  end.

(** include/mln_iothread.h:52: [mln_iothread_msg_release] *)
Definition release (st : state) (t m : nat) : result :=
  match msg_at st m with
  | None => Fault
  | Some x => match unlock x with None => Fault | Some x => Done (set_msg st m x) [Released t m] end
  end.

(** A thread can call when it is in its own code or in a handler. *)
Definition own_code (fs : list frame) : bool :=
  match fs with [] => true | Handle _ _ _ _ :: _ => true | _ => false end.

Definition who (e : event) : nat :=
  match e with
  | CallSend t _ _ _ _ _ | CallRecv t _ | Hold t _ | Release t _ | Lock t _ | Wake t | Next t | Return t => t
  end.

Definition step (st : state) (e : event) : result :=
  let t := who e in
  match nth_error (s_threads st) t with
  | None => Disabled
  | Some fs =>
      match e, fs with
      | CallSend _ ty data to feedback memory, _ =>
          if own_code fs then call_send st t fs ty data to feedback memory else Disabled
      | CallRecv _ from, _ => if own_code fs then Done (set_thread st t (RecvLock (recv_side from) :: fs)) [] else Disabled
      | Hold _ m, _ => if own_code fs then hold st t m else Disabled
      | Release _ m, _ => if own_code fs then release st t m else Disabled
      | Lock _ sent, SendLock to m ty data fb :: fs' =>
          match c_owner (get st to) with None => lock_send st t fs' to m ty data fb sent | Some _ => Disabled end
      | Lock _ _, RecvLock q :: fs' =>
          match c_owner (get st q) with None => lock_recv st t fs' q | Some _ => Disabled end
      | Wake _, SendWait m :: fs' => wake st t fs' m
      | Next _, Recv q first n :: fs' => next st t fs' q first n
      | Return _, Handle q first n m :: fs' => handler_return st t fs' q first n m
      | _, _ => Disabled
      end
  end.

(** src/mln_iothread.c:22-66: [mln_iothread_init] leaves both chains empty; [n]
    threads use the structure, [nthread] of them made by it. *)
Definition init (n : nat) : state := mkS [] (mkC [] None 0) (mkC [] None 0) (repeat [] n).

Fixpoint run (st : state) (es : list event) : result :=
  match es with
  | [] => Done st []
  | e :: es' =>
      match step st e with
      | Done st' out =>
          match run st' es' with
          | Done st'' out' => Done st'' (out ++ out')
          | r => r
          end
      | r => r
      end
  end.

(** * Messages between threads (src/mln_thread.c)

    Each thread the program makes is one end of a pair of sockets; the loop of the main thread holds the other end. A thread writes a structure of
    type mln_thread_msg_t, that names the thread it is for, to its socket; the main thread reads it, writes into it who it is from, and hangs it into
    the queue of the thread it is for, from where it is written to that thread's socket.

    The structure is 72 bytes long (LP64, little-endian): the pointer [dest], the pointer [src], and 56 bytes that are only passed on. Strings are
    objects shared by all threads: the n-th one that is made has the address n, counted from 1, and addresses are not used again. The memory behind
    [pdata] is not modelled. Memory does not run out: where it does the model ends in [NoMemory].
    The tree of threads is a list, as inserting, searching and deleting make it one (see RbProps).
    Receiving and sending are reduced to what ConnProps proves of them: pieces of at most 1024 bytes are put at the end of the chain, and bytes are
    given to the system in their order. What the system answers is part of the event. The event loop is reduced to what EventProps proves of it: the
    handler for sending is called at most once for each time it is set, the one for receiving whenever the system says so. *)
Require Import List Arith NArith Bool.
Require Import Verif.Base.
Import ListNotations.
Open Scope N_scope.

Definition bytes := list N.
Definition same (a b : bytes) : bool := if list_eq_dec N.eq_dec a b then true else false.

(** ** The structure *)
(** A pointer in memory. *)
Fixpoint put (k : nat) (n : N) : bytes := match k with O => [] | S k => n mod 256 :: put k (n / 256) end.
Fixpoint get (l : bytes) : N := match l with [] => 0 | x :: l => x + 256 * get l end.
(** include/mln_thread.h:43-58 mln_thread_msg_t: sizeof, and the two pointers *)
Definition size : nat := 72.
Definition dest_of (m : bytes) : N := get (firstn 8 m).
Definition src_of (m : bytes) : N := get (firstn 8 (skipn 8 m)).
(** m->src = p *)
Definition with_src (m : bytes) (p : N) : bytes := firstn 8 m ++ put 8 p ++ skipn 16 m.

(** ** The state *)
(** include/mln_thread.h:60-67 mln_thread_msgq_t: [key] is its address, [from] is sender *)
Record item := mkI { key : nat; from : option nat; what : bytes }.
(** include/mln_thread.h:69-85 mln_thread_t, and its sockets. [unread] was written by the thread and not read here; [got] was written here. [rcv] is
    the receiving chain: for each buffer what of it was read already, and what is left. [gone] and [left] are the one buffer of the sending chain: what
    of it was written, and what is left. [armed] says that the handler for sending is set. *)
Record thr := mkT { tid : nat; name : bytes; restart : bool; unread : bytes; rcv : list (bytes * bytes); local : list nat; dest : list item;
                    gone : bytes; left : bytes; got : bytes; armed : bool }.
(** The threads, the strings, the number of structures of type mln_thread_msgq_t and of threads ever made, and the strings that were freed. *)
Record st := mkW { threads : list thr; strings : list bytes; keys : nat; ids : nat; freed : list N }.
Definition init : st := mkW [] [] 0 0 [].
(** [BadString]: a pointer is followed that leads to no string. [BadFree]: what is freed was freed before, or never made. [BadLink]: a message is
    taken off a list that it is not in, or a thread that is no more is looked into. *)
Inductive fault := BadString | BadFree | BadLink | NoMemory | NoFuel.
Inductive res := Ok (s : st) | Fault (f : fault).
Definition andthen (r : res) (f : st -> res) : res := match r with Ok s => f s | Fault e => Fault e end.

Definition thread (s : st) (a : nat) : option thr := find (fun t => Nat.eqb (tid t) a) (threads s).
Definition change (s : st) (a : nat) (f : thr -> thr) : st :=
  mkW (map (fun t => if Nat.eqb (tid t) a then f t else t) (threads s)) (strings s) (keys s) (ids s) (freed s).
(** A string that was made, freed or not; and one that can be read. *)
Definition text (l : list bytes) (p : N) : option bytes := if p =? 0 then None else nth_error l (N.to_nat (p - 1)).
Definition reads (s : st) (p : N) : option bytes := if existsb (N.eqb p) (freed s) then None else text (strings s) p.
(** mln_string_free, and not of NULL *)
Definition free (s : st) (p : N) : res :=
  if p =? 0 then Ok s else
  match reads s p with Some _ => Ok (mkW (threads s) (strings s) (keys s) (ids s) (p :: freed s)) | None => Fault BadFree end.
(** src/mln_thread.c:170-185 mln_thread_clear_msg. Fewer bytes than the structure has: what is behind them is not known. *)
Definition clear_msg (s : st) (m : bytes) : res :=
  if Nat.ltb (length m) size then Fault BadFree else andthen (free s (dest_of m)) (fun s => free s (src_of m)).
Fixpoint clear_all (s : st) (l : list bytes) : res := match l with [] => Ok s | m :: l => andthen (clear_msg s m) (fun s => clear_all s l) end.

(** ** Lists of messages *)
(** msg_local_chain_del(&(sender->local_head), &(sender->local_tail), tmq), if there is a sender *)
Definition unlink (s : st) (i : item) : res :=
  match from i with
  | None => Ok s
  | Some a =>
      match thread s a with
      | None => Fault BadLink
      | Some t =>
          if existsb (Nat.eqb (key i)) (local t) then
            Ok (change s a (fun t => mkT (tid t) (name t) (restart t) (unread t) (rcv t) (remove Nat.eq_dec (key i) (local t)) (dest t) (gone t) (left t) (got t) (armed t)))
          else Fault BadLink
      end
  end.
Fixpoint unlink_all (s : st) (l : list item) : res := match l with [] => Ok s | i :: l => andthen (unlink s i) (fun s => unlink_all s l) end.
(** src/mln_thread.c:147-165 mln_thread_clear_msg_queue: the messages this thread sent have no sender any more, those for it are freed *)
Definition orphan (ks : list nat) (i : item) : item := if existsb (Nat.eqb (key i)) ks then mkI (key i) None (what i) else i.
Definition set_dest (t : thr) (l : list item) : thr := mkT (tid t) (name t) (restart t) (unread t) (rcv t) (local t) l (gone t) (left t) (got t) (armed t).
Definition clear_queue (s : st) (a : nat) : res :=
  match thread s a with
  | None => Fault BadLink
  | Some t =>
      let s := mkW (map (fun u => set_dest u (map (orphan (local t)) (dest u))) (threads s)) (strings s) (keys s) (ids s) (freed s) in
      let s := change s a (fun t => mkT (tid t) (name t) (restart t) (unread t) (rcv t) [] (dest t) (gone t) (left t) (got t) (armed t)) in
      match thread s a with
      | None => Fault BadLink
      | Some t => andthen (unlink_all s (dest t)) (fun s => andthen (clear_all s (map what (dest t))) (fun s => Ok (change s a (fun t => set_dest t []))))
      end
  end.

(** ** Threads come and go *)
(** src/mln_thread.c:88-113 mln_thread_init, 284-317 mln_thread_create, 330-377 __mln_thread_create, when the system has sockets and threads *)
Definition fresh (a : nat) (n : bytes) (r : bool) : thr := mkT a n r [] [] [] [] [] [] [] false.
Definition create (s : st) (n : bytes) (r : bool) : st := mkW (threads s ++ [fresh (ids s) n r]) (strings s) (keys s) (S (ids s)) (freed s).
(** src/mln_thread.c:593-652 mln_thread_deal_child_exit, with 115-145 mln_thread_destroy and 419-426 mln_thread_itc_chain_release_msg: the sending
    chain, the receiving chain and the queues are cleared; each buffer of a chain is taken for a message, from its start. The thread is made anew, or is no more. *)
Definition exits (s : st) (a : nat) : res :=
  match thread s a with
  | None => Fault BadLink
  | Some t =>
      andthen (clear_all s (match left t with [] => [] | _ => [gone t ++ left t] end ++ map (fun p => fst p ++ snd p) (rcv t))) (fun s =>
      andthen (clear_queue s a) (fun s =>
        if restart t then Ok (change s a (fun t => fresh a (name t) true))
        else Ok (mkW (filter (fun t => negb (Nat.eqb (tid t) a)) (threads s)) (strings s) (keys s) (ids s) (freed s))))
  end.

(** ** Reading what a thread wrote *)
(** src/mln_thread.c:387-393 mln_itc_get_buf_with_len, the first loop: there is enough *)
Fixpoint enough (have len : nat) (c : list (bytes * bytes)) : bool :=
  match c with
  | [] => false
  | (_, l) :: c => if Nat.leb len (have + length l) then true else enough (have + length l) len c
  end.
(** src/mln_thread.c:395-416 the second loop: what is copied, and the chain *)
Fixpoint takes (len : nat) (c : list (bytes * bytes)) : bytes * list (bytes * bytes) :=
  match c with
  | [] => ([], [])
  | (d, l) :: c =>
      if Nat.ltb len (length l) then (firstn len l, (d ++ firstn len l, skipn len l) :: c)
      else if Nat.eqb (len - length l) 0 then (l, c)
      else let (m, c) := takes (len - length l) c in (l ++ m, c)
  end.
Definition get_buf (c : list (bytes * bytes)) (len : nat) : option (bytes * list (bytes * bytes)) := if enough 0 len c then Some (takes len c) else None.
(** src/mln_thread.c:472-507 mln_main_thread_itc_recv_handler_process, for one message: the copy of the name of its sender is the newest string *)
Definition route (s : st) (a : nat) (m : bytes) : res :=
  match thread s a with
  | None => Fault BadLink
  | Some t =>
      let p := N.of_nat (length (strings s)) + 1 in
      if 2^64 <=? p then Fault NoMemory else
      let s := mkW (threads s) (strings s ++ [name t]) (keys s) (ids s) (freed s) in
      let m := with_src m p in
      match reads s (dest_of m) with
      | None => Fault BadString
      | Some d =>
          match find (fun t => same (name t) d) (threads s) with
          | None => clear_msg s m
          | Some u =>
              let s := change s a (fun t => mkT (tid t) (name t) (restart t) (unread t) (rcv t) (local t ++ [keys s]) (dest t) (gone t) (left t) (got t) (armed t)) in
              let s := change s (tid u) (fun t => mkT (tid t) (name t) (restart t) (unread t) (rcv t) (local t) (dest t ++ [mkI (keys s) (Some a) m]) (gone t) (left t) (got t)
                                                      (match dest t with [] => true | _ => armed t end)) in
              Ok (mkW (threads s) (strings s) (S (keys s)) (ids s) (freed s))
          end
      end
  end.
Definition set_rcv (t : thr) (c : list (bytes * bytes)) (l : bytes) : thr := mkT (tid t) (name t) (restart t) l c (local t) (dest t) (gone t) (left t) (got t) (armed t).
(** src/mln_thread.c:458-509 mln_main_thread_itc_recv_handler_process *)
Fixpoint process (fuel : nat) (s : st) (a : nat) : res :=
  match fuel with
  | O => Fault NoFuel
  | S fuel =>
      match thread s a with
      | None => Fault BadLink
      | Some t =>
          match get_buf (rcv t) size with
          | None => Ok s
          | Some (m, c) => andthen (route (change s a (fun t => set_rcv t c (unread t))) a m) (fun s => process fuel s a)
          end
      end
  end.
(** src/mln_connection.c:711-742 mln_tcp_conn_recv: how many bytes each call of recv yields, if there are any *)
Fixpoint pieces (ks : list nat) (l : bytes) : list (bytes * bytes) * bytes :=
  match ks with
  | [] => ([], l)
  | k :: ks =>
      match l with
      | [] => ([], [])
      | _ => let n := Nat.min (Nat.max 1 k) 1024 in let (c, r) := pieces ks (skipn n l) in (([], firstn n l) :: c, r)
      end
  end.
(** The last answer: nothing more at the moment; the end, that comes behind all bytes; an error. *)
Inductive last := Later | Closed | Failed.
(** src/mln_thread.c:431-456 mln_main_thread_itc_recv_handler *)
Definition receive (s : st) (a : nat) (ks : list nat) (e : last) : res :=
  match thread s a with
  | None => Ok s
  | Some t =>
      let (c, l) := pieces ks (unread t) in
      let s := change s a (fun t => set_rcv t (rcv t ++ c) l) in
      match e, l with
      | Failed, _ | Closed, [] => exits s a
      | _, _ => process (S (length (unread t) + length (concat (map snd (rcv t))))) s a
      end
  end.

(** ** Writing to a thread *)
(** What send answers: how many bytes it took, or an error. At the end of the list it would wait. *)
Inductive wr := Took (n : nat) | Broke.
Inductive ending := Waits | Breaks.
(** src/mln_thread.c:523-545, the loop with mln_tcp_conn_send: what was written, what is left, what the system answers next; [None]: the loop is left because all is written *)
Fixpoint push (ws : list wr) (l : bytes) : bytes * bytes * list wr * option ending :=
  match l with
  | [] => ([], [], ws, None)
  | _ :: _ =>
      match ws with
      | [] => ([], l, [], Some Waits)
      | Broke :: ws => ([], l, ws, Some Breaks)
      | Took n :: ws => let n := Nat.min (Nat.max 1 n) (length l) in let '(w, l', ws, e) := push ws (skipn n l) in (firstn n l ++ w, l', ws, e)
      end
  end.
(** What comes of it: the messages taken off the queue, the bytes written, the buffer, the queue. *)
Record pumped := mkP { off : list item; written : bytes; pgone : bytes; pleft : bytes; rest : list item; ends : option ending }.
(** src/mln_thread.c:523-590 the loops of mln_main_thread_itc_send_handler. Messages are taken off the lists of their senders below, which is no different. *)
Fixpoint pump (ws : list wr) (g l : bytes) (q : list item) : pumped :=
  let '(w, l', ws, e) := push ws l in
  match e with
  | Some e => mkP [] w (g ++ w) l' q (Some e)
  | None =>
      match q with
      | [] => mkP [] w [] [] [] None
      | i :: q => let r := pump ws [] (what i) q in mkP (i :: off r) (w ++ written r) (pgone r) (pleft r) (rest r) (ends r)
      end
  end.
(** src/mln_thread.c:511-591 mln_main_thread_itc_send_handler; it is called if it is set, and is not set any more unless the system would
    wait. (After an error the thread ends, so [armed] does not matter.) *)
Definition send (s : st) (b : nat) (ws : list wr) : res :=
  match thread s b with
  | None => Ok s
  | Some t =>
      if armed t then
        let r := pump ws (gone t) (left t) (dest t) in
        let s := change s b (fun t => mkT (tid t) (name t) (restart t) (unread t) (rcv t) (local t) (rest r) (pgone r) (pleft r) (got t ++ written r)
                                          (match ends r with None => false | _ => true end)) in
        andthen (unlink_all s (off r)) (fun s => match ends r with Some Breaks => exits s b | _ => Ok s end)
      else Ok s
  end.

(** ** Histories *)
(** A thread is made; some thread makes a string, or frees one; thread [a] writes bytes to its socket; the loop calls a handler. *)
Inductive op :=
| Create (n : bytes) (r : bool)
| Make (s : bytes)
| Free (p : N)
| Write (a : nat) (l : bytes)
| Receive (a : nat) (ks : list nat) (e : last)
| Send (b : nat) (ws : list wr).
Definition step (s : st) (o : op) : res :=
  match o with
  | Create n r => Ok (create s n r)
  | Make t => if 2^64 <=? N.of_nat (length (strings s)) + 1 then Fault NoMemory else Ok (mkW (threads s) (strings s ++ [t]) (keys s) (ids s) (freed s))
  | Free p => free s p
  | Write a l => Ok (change s a (fun t => set_rcv t (rcv t) (unread t ++ l)))
  | Receive a ks e => receive s a ks e
  | Send b ws => send s b ws
  end.
Fixpoint run (s : st) (l : list op) : res := match l with [] => Ok s | o :: l => andthen (step s o) (fun s => run s l) end.

(** Model of the descriptors of src/mln_event.c, as it is built with epoll, for any number of threads.

    Sections under [fd_lock] are single steps; between them every thread may take a step. Handlers run without the lock: what they call is not told
    apart from what other threads call. The kernel is part of the model: what is watched, and what it may report. An event descriptor
    ([mln_event_desc_t]) is found by the number of its file descriptor, a pointer to it is that number and a generation: it dangles when the
    generation is not that of the descriptor now. The tree, the chain of waiting descriptors and the heap of timeouts hold the descriptors that are
    there, resp. those with a deadline. Times are microseconds. Memory allocation succeeds, epoll_ctl fails only as epoll(7) says. *)
Require Import List Arith NArith Bool.
Require Import Verif.Base.
Import ListNotations.

(** include/mln_event.h:35-37 M_EV_RECV, M_EV_SEND, M_EV_ERROR *)
Inductive kind := Recv | Send | Err.
Definition kind_eqb (a b : kind) : bool := match a, b with Recv, Recv | Send, Send | Err, Err => true | _, _ => false end.
Definition kset := kind -> bool.
Definition none_of : kset := fun _ => false.
Definition only (k : kind) : kset := fun k' => kind_eqb k k'.
Definition some_of (f : kset) : bool := f Recv || f Send || f Err.
Definition upk {A} (f : kind -> A) (k : kind) (v : A) : kind -> A := fun k' => if kind_eqb k k' then v else f k'.
Definition upd {A} (f : nat -> A) (x : nat) (v : A) : nat -> A := fun y => if Nat.eqb y x then v else f y.
Definition ptr := (nat * nat)%type.
Definition ptr_eqb (a b : ptr) : bool := Nat.eqb (fst a) (fst b) && Nat.eqb (snd a) (snd b).

(** include/mln_event.h:70-92 [mln_event_fd_t] and [flag] of 100-111 [mln_event_desc_t]: the generation, [flag], the marks for one shot,
    [active_flag], the handlers with their data, the handler of the timeout, [end_us] while there is a [timeout_node], and three marks. *)
Record desc := mkD { gen : nat; want : kset; once : kset; act : kset; hand : kind -> option nat; thand : option nat; deadline : option N;
  in_process : bool; is_clear : bool; in_active : bool }.
Definition blank (g : nat) (p : bool) : desc := mkD g none_of none_of none_of (fun _ => None) None None p false false.
Definition with_deadline (d : desc) (t : option N) : desc := mkD (gen d) (want d) (once d) (act d) (hand d) (thand d) t (in_process d) (is_clear d) (in_active d).
Definition with_act (d : desc) (a : kset) : desc := mkD (gen d) (want d) (once d) a (hand d) (thand d) (deadline d) (in_process d) (is_clear d) (in_active d).
Definition with_marks (d : desc) (p c a : bool) : desc := mkD (gen d) (want d) (once d) (act d) (hand d) (thand d) (deadline d) p c a.

(** What the kernel watches for a file descriptor: the kinds, EPOLLONESHOT, whether it has not fired since, and the pointer it was given. *)
Record watch := mkW { mask : kset; once_only : bool; armed : bool; data_ptr : nat }.
(** Where a thread in mln_event_dispatch is: before or in mln_event_active_fd_process, in a handler with the kinds that come after it,
    before mln_event_fd_timeout_process, in it, in the handler of a timeout, before epoll_wait; it has not started; it has returned. *)
Inductive pc := Off | AtActive | InHandler (p : ptr) (k : kind) (rest : list kind) | ToTimeout | AtTimeout (now : N) | InTimeout (p : ptr) (now : N) | AtPoll | Out.
Record st := mkS { descs : nat -> option desc; active : list ptr; epoll : nat -> option watch; fresh : nat; broken : bool; pcs : nat -> pc }.
Definition event_new : st := mkS (fun _ => None) [] (fun _ => None) 0 false (fun _ => Off).
Definition put (s : st) (fd : nat) (d : option desc) : st := mkS (upd (descs s) fd d) (active s) (epoll s) (fresh s) (broken s) (pcs s).
Definition with_epoll (s : st) (fd : nat) (w : option watch) : st := mkS (descs s) (active s) (upd (epoll s) fd w) (fresh s) (broken s) (pcs s).
Definition with_active (s : st) (a : list ptr) : st := mkS (descs s) a (epoll s) (fresh s) (broken s) (pcs s).
Definition at_pc (s : st) (t : nat) (p : pc) : st := mkS (descs s) (active s) (epoll s) (fresh s) (broken s) (upd (pcs s) t p).
Definition deref (s : st) (p : ptr) : option desc :=
  match descs s (fst p) with Some d => if Nat.eqb (gen d) (snd p) then Some d else None | None => None end.

(** What happens. [timeout]: M_EV_UNMODIFIED, M_EV_UNLIMITED, or milliseconds and the time of the call. [Set_ fd f o a t h]: the kinds, M_EV_ONESHOT,
    M_EV_APPEND; M_EV_NONBLOCK and M_EV_BLOCK change the file only. Steps of threads: [Busy], the lock is not free; [Go], the next active
    descriptor; [Return_] of a handler; [Clock], the time is read; [Look], the heap answers with that descriptor; [NoTimeout]; [Poll] with
    the answer of epoll_wait; [Idle], it has none. *)
Inductive timeout := Unmodified | Unlimited | After (ms now : N).
Inductive label := Set_ (fd : nat) (f : kset) (o a : bool) (t : timeout) (h : option nat) | Clr (fd : nat) | SetTimeoutHandler (fd : nat) (h : option nat) | Break
  | Start (t : nat) | Busy (t : nat) | Go (t : nat) | Return_ (t : nat) | Clock (t : nat) (now : N) | Look (t fd : nat) | NoTimeout (t : nat) | Poll (t : nat) (l : list (nat * kset)) | Idle (t : nat).
(** What can be seen, also of the kernel. [Served]: the handlers of what was reported for the descriptor are called next; [Ignored]: there was none. *)
Inductive event := WasSet (fd : nat) (f : kset) (o a : bool) (t : timeout) (h : option nat) | Cleared (fd : nat) | TimeoutHandler (fd : nat) (h : option nat)
  | Served (fd : nat) | Called (fd : nat) (k : kind) (h : nat) | Ignored (fd : nat) (k : kind) | Expired (fd : nat) (h : option nat) (now : N) | NoneDue (now : N)
  | Reported (fd : nat) (k : kind) | Polled.
(** [Stuck]: not possible now. [Broken]: against the rules, an assertion or an overflow. [Fault]: memory is used after it was freed. *)
Inductive result := Stuck | Broken | Fault | Next (s : st) (e : list event).

(** ** The interface *)
(** epoll_ctl with EPOLL_CTL_MOD or EPOLL_CTL_ADD *)
Definition ctl (s : st) (fd : nat) (w : watch) (modify : bool) : st :=
  match epoll s fd, modify with Some _, true | None, false => with_epoll s fd (Some w) | _, _ => s end.
(** src/mln_event.c:496-652 mln_event_fd_append_set; the timeout is set before. *)
Definition append (s : st) (fd : nat) (d : desc) (f : kset) (o : bool) (h : option nat) (modify : bool) : st :=
  let d := mkD (gen d) (fun k => want d k || f k) (fun k => once d k || f k && o) (act d) (fun k => if f k then h else hand d k) (thand d) (deadline d) (in_process d) (is_clear d) (in_active d) in
  let s := put s fd (Some d) in
  if some_of (want d) then ctl s fd (mkW (want d) o true (gen d)) modify else s.
(** src/mln_event.c:654-688 mln_event_fd_timeout_set; [timeout_ms * 1000] is an [int]. *)
Definition set_timeout (d : desc) (t : timeout) : desc :=
  match t with Unmodified => d | Unlimited => with_deadline d None | After ms now => with_deadline d (Some (now + ms * 1000)%N) end.
Definition fits (t : timeout) : bool := match t with After ms _ => N.ltb ms 2147484 | _ => true end.
(** src/mln_event.c:347-433 mln_event_fd_set and 435-494 mln_event_fd_normal_set. The generation of a new descriptor is new. *)
Definition set_fd (s : st) (fd : nat) (f : kset) (o a : bool) (t : timeout) (h : option nat) : option st :=
  if negb (fits t) then None
  else
    match descs s fd with
    | None => let s' := append s fd (set_timeout (blank (fresh s) false) t) f o h false in Some (mkS (descs s') (active s') (epoll s') (S (fresh s')) (broken s') (pcs s'))
    | Some d =>
        if a then if is_clear d then None else Some (append s fd (set_timeout d t) f o h true)
        else if is_clear d then Some (append s fd (set_timeout (blank (gen d) (in_process d)) t) f o h false)
        else Some (append s fd (set_timeout (mkD (gen d) none_of none_of (act d) (hand d) (thand d) (deadline d) (in_process d) (is_clear d) (in_active d)) t) f o h true)
    end.
(** src/mln_event.c:690-748 mln_event_fd_clr_set *)
Definition without (p : ptr) (l : list ptr) : list ptr := filter (fun q => negb (ptr_eqb p q)) l.
Definition clear (s : st) (fd : nat) : st :=
  match descs s fd with
  | None => s
  | Some d =>
      let s := with_epoll s fd None in
      if in_process d then put s fd (Some (with_marks (with_deadline d None) true true (in_active d)))
      else put (with_active s (if in_active d then without (fd, gen d) (active s) else active s)) fd None
  end.

(** ** The dispatcher *)
(** BREAK_OUT *)
Definition goto (s : st) (t : nat) (p : pc) : st := at_pc s t (if broken s then Out else p).
(** src/mln_event.c:1292-1302 and 1369-1377: the end of a descriptor's turn. *)
Definition finish (s : st) (t : nat) (p : ptr) (d : desc) (next : pc) : st :=
  let s := put s (fst p) (Some (with_marks d false (is_clear d) (in_active d))) in
  goto (if is_clear d then clear s (fst p) else s) t next.
(** src/mln_event.c:1247-1291: the handlers of the kinds that were reported. [active_flag] is 0 if the descriptor was cleared or the loop is to end. *)
Fixpoint stages (s : st) (t : nat) (p : ptr) (d : desc) (ks : list kind) : st * list event :=
  match ks with
  | [] => (finish s t p d AtActive, [])
  | k :: ks =>
      if act d k then
        match hand d k with
        | Some h => (at_pc (put s (fst p) (Some d)) t (InHandler p k ks), [Called (fst p) k h])
        | None => let '(s', e) := stages s t p (with_act d (upk (act d) k false)) ks in (s', e ++ [Ignored (fst p) k])
        end
      else stages s t p d ks
  end.
Definition given_up (s : st) (d : desc) : desc := if is_clear d || broken s then with_act d none_of else d.
(** src/mln_event.c:1218-1245 *)
Definition go (s : st) (t : nat) : result :=
  match active s with
  | [] => Next (goto s t ToTimeout) []
  | p :: l =>
      match deref s p with
      | None => Fault
      | Some d =>
          let s := with_active s l in
          let '(s, e) := stages s t p (given_up s (with_marks (with_deadline d None) true (is_clear d) false)) [Recv; Send; Err] in
          Next s (e ++ [Served (fst p)])
      end
  end.
(** src/mln_event.c:1256-1261, 1272-1277, 1287-1291 *)
Definition back (s : st) (t : nat) (p : ptr) (k : kind) (rest : list kind) : result :=
  match deref s p with
  | None => Fault
  | Some d => let '(s, e) := stages s t p (given_up s (with_act d (upk (act d) k false))) rest in Next s e
  end.
(** The deadlines in the heap: [f] holds for all. *)
Definition all_deadlines (s : st) (fds : list nat) (f : N -> bool) : bool :=
  forallb (fun fd => match descs s fd with Some d => match deadline d with Some e => f e | None => true end | None => true end) fds.
(** src/mln_event.c:1313-1368 mln_event_fd_timeout_process: the descriptor [fd] is the one the heap has first. *)
Definition look (s : st) (t fd : nat) (now : N) : result :=
  match descs s fd with
  | None => Stuck
  | Some d =>
      match deadline d with
      | None => Stuck
      | Some e =>
          let s := with_active s (if in_active d then without (fd, gen d) (active s) else active s) in
          let d := with_marks d (in_process d) (is_clear d) false in
          if N.ltb now e then Next (goto (put s fd (Some d)) t AtPoll) [NoneDue now]
          else
            let d := with_marks (with_deadline d None) true (is_clear d) false in
            match thand d with
            | Some h => Next (at_pc (put s fd (Some d)) t (InTimeout (fd, gen d) now)) [Expired fd (Some h) now]
            | None => Next (finish s t (fd, gen d) d (AtTimeout now)) [Expired fd None now]
            end
      end
  end.
(** src/mln_event.c:857-916: one kind of a report. [x]: a one-shot was used up. *)
Definition note (fd : nat) (ev : kset) (x : st * bool) (k : kind) : st * bool :=
  let (s, x) := x in
  match descs s fd with
  | None => (s, x)
  | Some d =>
      if negb (ev k) then (s, x)
      else if in_active d || in_process d then (if once d k && negb (act d k) then append s fd d (only k) true (hand d k) true else s, x)
      else
        (put s fd (Some (mkD (gen d) (if once d k then upk (want d) k false else want d) (upk (once d) k false) (upk (act d) k true) (hand d) (thand d) (deadline d) (in_process d) (is_clear d) (in_active d))),
         x || once d k)
  end.
(** epoll_wait reports a file descriptor: errors always, else what it was asked for. src/mln_event.c:848-944 *)
Definition report (s : st) (fd : nat) (ev : kset) : result :=
  match epoll s fd with
  | None => Stuck
  | Some w =>
      if armed w && (negb (ev Recv) || mask w Recv) && (negb (ev Send) || mask w Send) then
        let s := if once_only w then with_epoll s fd (Some (mkW (mask w) true false (data_ptr w))) else s in
        match deref s (fd, data_ptr w) with
        | None => Fault
        | Some d =>
            let e := (if ev Err then [Reported fd Err] else []) ++ (if ev Send then [Reported fd Send] else []) ++ (if ev Recv then [Reported fd Recv] else []) in
            if is_clear d then Next s e
            else
              let '(s, x) := note fd ev (note fd ev (note fd ev (s, false) Recv) Send) Err in
              match descs s fd with
              | None => Fault
              | Some d =>
                  if in_active d || in_process d then Next s e
                  else
                    let s := put (with_active s (active s ++ [(fd, gen d)])) fd (Some (with_marks d (in_process d) (is_clear d) true)) in
                    Next (if x then ctl s fd (mkW (want d) (some_of (once d)) true (gen d)) true else s) e
              end
        end
      else Stuck
  end.
Fixpoint reports (s : st) (l : list (nat * kset)) (e : list event) : result :=
  match l with
  | [] => Next s e
  | (fd, ev) :: l => if existsb (fun x => Nat.eqb fd (fst x)) l then Stuck else match report s fd ev with Next s e' => reports s l (e' ++ e) | r => r end
  end.

(** [bound] is above every number of a file descriptor. *)
Definition step (bound : nat) (s : st) (l : label) : result :=
  match l with
  | Set_ fd f o a t h => match set_fd s fd f o a t h with Some s => Next s [WasSet fd f o a t h] | None => Broken end
  | Clr fd => Next (clear s fd) [Cleared fd]
  (** src/mln_event.c:324-345 mln_event_fd_timeout_handler_set. Simplified: a descriptor that is marked as cleared counts as one that is not there,
      for which the assertion fails. *)
  | SetTimeoutHandler fd h =>
      match descs s fd with
      | None => Broken
      | Some d => if is_clear d then Broken else
          Next (put s fd (Some (mkD (gen d) (want d) (once d) (act d) (hand d) h (deadline d) (in_process d) (is_clear d) (in_active d)))) [TimeoutHandler fd h]
      end
  (** include/mln_event.h:145 mln_event_break_set *)
  | Break => Next (mkS (descs s) (active s) (epoll s) (fresh s) true (pcs s)) []
  (** src/mln_event.c:804-833 mln_event_dispatch *)
  | Start t => match pcs s t with Off => Next (goto s t AtActive) [] | _ => Stuck end
  | Busy t =>
      match pcs s t with
      | AtActive => Next (goto s t ToTimeout) []
      | AtTimeout _ => Next (goto s t AtPoll) []
      | AtPoll => Next (goto s t AtActive) []
      | _ => Stuck
      end
  | Go t => match pcs s t with AtActive => go s t | _ => Stuck end
  | Return_ t =>
      match pcs s t with
      | InHandler p k rest => back s t p k rest
      | InTimeout p now => match deref s p with Some d => Next (finish s t p d (AtTimeout now)) [] | None => Fault end
      | _ => Stuck
      end
  | Clock t now => match pcs s t with ToTimeout => Next (at_pc s t (AtTimeout now)) [] | _ => Stuck end
  | Look t fd =>
      match pcs s t with
      | AtTimeout now =>
          match descs s fd with
          | Some d => match deadline d with Some e => if all_deadlines s (seq 0 bound) (N.leb e) then look s t fd now else Stuck | None => Stuck end
          | None => Stuck
          end
      | _ => Stuck
      end
  | NoTimeout t => match pcs s t with AtTimeout now => if all_deadlines s (seq 0 bound) (fun _ => false) then Next (goto s t AtPoll) [NoneDue now] else Stuck | _ => Stuck end
  (** src/mln_event.c:843-949: what epoll_wait reports. *)
  | Poll t l => match pcs s t with AtPoll => match reports s l [Polled] with Next s e => Next (goto s t AtActive) e | r => r end | _ => Stuck end
  | Idle t => match pcs s t with AtPoll => Next (goto s t AtActive) [Polled] | _ => Stuck end
  end.
(** A schedule; the events come latest first. *)
Fixpoint run (bound : nat) (s : st) (h : list event) (ls : list label) : result :=
  match ls with
  | [] => Next s h
  | l :: ls => match step bound s l with Next s e => run bound s (e ++ h) ls | r => r end
  end.

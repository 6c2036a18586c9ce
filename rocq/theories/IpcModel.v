(** * Messages between the master process and its workers (src/mln_fork.c)

    A message is a type and bytes. It is written into one buffer, [length | type | bytes], that is queued on the connection; the other side
    receives pieces into memory and cuts them. The functions for the two sides are the same text over other variables, and are modelled once.
    The connection is that of [ConnModel]. The machine is little-endian. The tree of handlers is a list of pairs, newest first, as searching,
    deleting and inserting make it one (see RbProps); a handler is a number, NULL is [None]. *)
Require Import List Arith NArith Bool.
Require Import Verif.Base Verif.ConnModel.
Import ListNotations.
Open Scope N_scope.

Definition bytes := list N.

(** ** Sending *)
(** memcpy of a 32-bit number, and back. *)
Definition put32 (n : N) : bytes := [n mod 256; n / 256 mod 256; n / 65536 mod 256; n / 16777216 mod 256].
Definition get32 (l : bytes) : N := nth 0 l 0 + 256 * nth 1 l 0 + 65536 * nth 2 l 0 + 16777216 * nth 3 l 0.
(** src/mln_fork.c:766-816 mln_ipc_master_send_prepare and 852-902 mln_ipc_worker_send_prepare, when memory is there: the buffer, or [None] if
    more is copied than it holds. The length is a 32-bit number, the size of the buffer is not. *)
Definition send_prepare (s : conn) (type : N) (msg : bytes) : option conn :=
  let length := (4 + N.of_nat (length msg)) mod 2^32 in
  let buflen := length + 4 in
  if buflen <? 8 + N.of_nat (List.length msg) then None
  else Some (append_chain s [Some (Mem [] (put32 length ++ put32 type ++ msg) true)]).
(** src/mln_fork.c:818-850 mln_ipc_fd_handler_master_send and 904-939 mln_ipc_fd_handler_worker_send: what the socket answers is [o]; the handler
    is armed again when it must wait. [Gone] is the call that ends the other process, or this one. *)
Inductive sres := SWaits | SFuel | Gone | Sent (s : conn) (o : list ans).
Fixpoint fd_send (fuel : nat) (b : build) (s : conn) (o : list ans) : sres :=
  match fuel with
  | O => SFuel
  | S fuel =>
      match snd s with
      | [] => Sent (remove_sent s) o
      | _ :: _ =>
          match conn_send b s o with
          | Returns FINISH s o => fd_send fuel b s o
          | Returns NOTYET s o => Sent (remove_sent s) o
          | Returns _ _ _ => Gone
          | Waits => SWaits
          | Undefined => Gone
          end
      end
  end.

(** ** Cutting what was received *)
(** mln_buf_left_size, of a node that has a buffer in memory. *)
Definition left_size (x : option buf) : option N := match x with Some (Mem _ a _) => Some (N.of_nat (length a)) | _ => None end.
(** src/mln_fork.c:545-551 mln_ipc_get_buf_with_len, the first loop: there is enough *)
Fixpoint enough (size len : N) (c : chain) : bool :=
  match c with
  | [] => false
  | x :: c =>
      match left_size x with
      | None => enough size len c
      | Some l => if len <=? size + l then true else enough (size + l) len c
      end
  end.
(** src/mln_fork.c:553-571 the second loop: what is copied, and the queue *)
Fixpoint takes (len : N) (c : chain) : bytes * chain :=
  match c with
  | [] => ([], [])
  | Some (Mem b a m) :: c =>
      let size := N.of_nat (length a) in
      if len <? size then (firstn (N.to_nat len) a, Some (Mem (b ++ firstn (N.to_nat len) a) (skipn (N.to_nat len) a) m) :: c)
      else if len - size =? 0 then (a, c)
      else let (d, c) := takes (len - size) c in (a ++ d, c)
  | _ :: c => takes len c
  end.
(** src/mln_fork.c:536-574 mln_ipc_get_buf_with_len *)
Definition get_buf (c : chain) (len : N) : option (bytes * chain) := if enough 0 len c then Some (takes len c) else None.
(** src/mln_fork.c:576-603 mln_ipc_discard_bytes: what is still to be discarded, and the queue *)
Fixpoint discard (size : N) (c : chain) : N * chain :=
  match c with
  | [] => (size, [])
  | Some (Mem b a m) :: c =>
      let left := N.of_nat (length a) in
      if size <? left then (0, Some (Mem (b ++ firstn (N.to_nat size) a) (skipn (N.to_nat size) a) m) :: c)
      else if size - left =? 0 then (0, c)
      else discard (size - left) c
  | _ :: c => discard size c
  end.

(** ** Handlers *)
Definition table := list (N * option N).
Definition search (t : table) (type : N) : option (option N) := match find (fun x => fst x =? type) t with Some x => Some (Datatypes.snd x) | None => None end.
Definition delete (t : table) (type : N) : table := filter (fun x => negb (fst x =? type)) t.
(** src/mln_fork.c:391-410 mln_fork_master_ipc_handler_set and 412-431 mln_fork_worker_ipc_handler_set. Memory for the handler and for the node
    may be missing; the answer is whether 0 is returned. *)
Definition handler_set (t : table) (type : N) (h : option N) (mem_handler mem_node : bool) : bool * table :=
  if negb mem_handler then (false, t)
  else
    let t := match search t type with Some _ => delete t type | None => t end in
    if mem_node then (true, (type, h) :: t) else (false, t).
(** A call of a handler: which, and with what bytes. *)
Definition call := (N * bytes)%type.

(** ** Receiving *)
(** The state, the length of the message, whether memory for it is held, and the bytes to be thrown away. *)
Record reader := mkR { in_length : bool; msg_len : N; content : bool; error_bytes : N }.
(** src/mln_fork.c:132-153 mln_fork_init, and 82-86 mln_fork_prepare *)
Definition reader_new : reader := mkR false 0 false 0.
(** [Spins]: the loop that throws bytes away never ends. [Breaks]: bytes are read behind the message. *)
Inductive pres := PFuel | Spins | Breaks | Rests (r : reader) (c : chain) (t : table) (l : list call).
Definition before (l : list call) (x : pres) : pres := match x with Rests r c t m => Rests r c t (l ++ m) | _ => x end.

Section Receive.
(** What handlers do to the table of handlers. They are not taken to touch the connection they are called for. *)
Variable does : call -> table -> table.
(** The end of src/mln_fork.c:633-650: the handler that is found is called *)
Definition dispatch (t : table) (type : N) (msg : bytes) : table * list call :=
  match search t type with
  | Some (Some h) => (does (h, msg) t, [(h, msg)])
  | _ => (t, [])
  end.
(** src/mln_fork.c:605-656 mln_ipc_fd_handler_master_process and 713-764 mln_ipc_fd_handler_worker_process; [al] says what malloc answers, and it
    has memory at the end of the list. Throwing away with an empty queue changes nothing, so that loop goes on for ever. *)
Fixpoint process (fuel : nat) (r : reader) (c : chain) (t : table) (al : list bool) : pres :=
  match fuel with
  | O => PFuel
  | S fuel =>
      let (e, c) := if error_bytes r =? 0 then (0, c) else discard (error_bytes r) c in
      if negb (e =? 0) then Spins
      else
        match (if in_length r then Some (msg_len r, c) else match get_buf c 4 with Some (d, c) => Some (get32 d, c) | None => None end) with
        | None => Rests (mkR false (msg_len r) (content r) 0) c t []
        | Some (n, c) =>
            let (m, al) := if content r then (true, al) else match al with [] => (true, []) | a :: al => (a, al) end in
            if negb m then process fuel (mkR false n false n) c t al
            else
              match get_buf c n with
              | None => Rests (mkR true n true 0) c t []
              | Some (d, c) =>
                  if n <? 4 then Breaks
                  else
                    let (t, l) := dispatch t (get32 d) (skipn 4 d) in
                    before l (process fuel (mkR false n false 0) c t al)
              end
        end
  end.

(** src/mln_fork.c:511-534 mln_ipc_fd_handler_master and 691-711 mln_ipc_fd_handler_worker: [NLost] is when the connection is closed or has an
    error; then the other process is given up, or this one ends. *)
Inductive nres := NWaits | NLost | NBroken | NSpins | NFuel | Next (s : inbox) (r : reader) (t : table) (l : list call).
Definition held (c : chain) : nat := fold_right (fun x n => (match x with Some (Mem _ a _) => length a | _ => O end + n)%nat) O c.
Definition fd_receive (block : bool) (s : inbox) (r : reader) (t : table) (o : list ans) (al : list bool) : nres :=
  match recv_mem block s o with
  | RWaits => NWaits
  | RReturns NOTYET s _ =>
      match process (S (S (held (rcv s)))) r (rcv s) t al with
      | Rests r c t l => Next (mkI (coming s) c) r t l
      | PFuel => NFuel
      | Spins => NSpins
      | Breaks => NBroken
      end
  | RReturns _ _ _ => NLost
  end.
End Receive.

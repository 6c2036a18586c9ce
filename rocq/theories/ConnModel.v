(** Model of src/mln_connection.c: sending and receiving chains of buffers over a socket.

    A chain is the list of its nodes; a node has no buffer, or one in memory, or one in a file. The operating system is a list of answers, one
    for each call of writev, send, sendfile, read, recv, open and write. Queues are lists of nodes: their head and tail pointers are not
    modelled, nor is memory, apart from the release of a whole queue. Allocations succeed. *)
Require Import List Arith NArith Bool.
Require Import Verif.Base.
Import ListNotations.

(** include/mln_chain.h:14-35 [mln_buf_t]: bytes in front of and behind [left_pos], or the content of the file, [file_left_pos] and
    [file_last]; and [last_in_chain]. A buffer is in memory or in a file, and not both. *)
Inductive buf := Mem (before after : list N) (mark : bool) | File (data : list N) (pos last : nat) (mark : bool).
(** include/mln_chain.h:37-40 [mln_chain_t] *)
Definition chain := list (option buf).
Definition mark (b : buf) : bool := match b with Mem _ _ m => m | File _ _ _ m => m end.
(** include/mln_chain.h:47-49 mln_buf_left_size is not 0 *)
Definition some_left (b : buf) : bool := match b with Mem _ a _ => negb (Nat.eqb (length a) 0) | File _ p l _ => negb (Nat.eqb p l) end.

(** include/mln_connection.h:37-46 [mln_tcp_conn_t]: the queue to send, the queue of what was sent, and the bytes the socket has taken. *)
Record conn := mkC { snd : chain; sent : chain; wire : list N }.
(** src/mln_connection.c:65-73 mln_tcp_conn_init *)
Definition conn_new : conn := mkC [] [] [].
(** src/mln_connection.c:85-116 mln_tcp_conn_append_chain, to the queue to send *)
Definition append_chain (s : conn) (c : chain) : conn := mkC (snd s ++ c) (sent s) (wire s).
(** src/mln_connection.c:157-174 mln_tcp_conn_remove, of the queue of what was sent *)
Definition remove_sent (s : conn) : conn := mkC (snd s) [] (wire s).
(** An answer of the system: [Ok k] is success with at most [k] bytes, but at least one if there is any. *)
Inductive ans := Ok (k : nat) | Intr | Again | Fail.
(** How many of [l] bytes are taken. *)
Definition taken (k l : nat) : nat := Nat.min (Nat.max 1 k) l.

(** The result of an inner function is negative, 0 or positive. [Wait]: the answers have run out, the call is still waiting. [Bad] is undefined
    behaviour. *)
Inductive ret := Neg | Zero | Pos.
Inductive res := Wait | Bad | Ret (r : ret) (s : conn) (o : list ans).

(** ** Memory, with writev *)
(** src/mln_connection.c:262-274 and 317-329: the buffers handed to writev, at most 256. *)
Fixpoint gather (room : nat) (c : chain) : list (list N) :=
  match c with
  | [] => []
  | x :: r =>
      match room with
      | O => []
      | S room' =>
          match x with
          | None => gather room r
          | Some (File _ _ _ _) => []
          | Some (Mem _ a m) =>
              match a with
              | [] => if m then [] else gather room r
              | _ => a :: (if m then [] else gather room' r)
              end
          end
      end
  end.
(** src/mln_connection.c:290-310 and 344-364: [n] bytes were taken. The nodes to move to the sent queue, what is left, and [is_done]. *)
Fixpoint consume (c : chain) (n : nat) : chain * chain * bool :=
  match c with
  | [] => ([], [], false)
  | None :: r => let '(p, q, d) := consume r n in (None :: p, q, d)
  | Some (File _ _ _ _) :: _ => ([], c, false)
  | Some (Mem b a m) :: r =>
      if Nat.leb (length a) n then
        if m || Nat.eqb (n - length a) 0 then ([Some (Mem (b ++ a) [] m)], r, m)
        else let '(p, q, d) := consume r (n - length a) in (Some (Mem (b ++ a) [] m) :: p, q, d)
      else ([], Some (Mem (b ++ firstn n a) (skipn n a) m) :: r, m)
  end.
Definition advance (s : conn) (p q : chain) (w : list N) : conn := mkC q (sent s ++ p) (wire s ++ w).
(** src/mln_connection.c:260-315: the socket does not block. When there is nothing to hand over, the whole queue is released. *)
Fixpoint writev_nb (o : list ans) (s : conn) : res :=
  match gather 256 (snd s) with
  | [] => Ret Zero (mkC [] (sent s) (wire s)) o
  | v =>
      match o with
      | [] => Wait
      | Intr :: o => writev_nb o s
      | Again :: o => Ret Zero s o
      | Fail :: o => Ret Neg s o
      | Ok k :: o =>
          let n := taken k (length (concat v)) in
          let '(p, q, d) := consume (snd s) n in
          let s := advance s p q (firstn n (concat v)) in
          if d then Ret Pos s o else writev_nb o s
      end
  end.
(** src/mln_connection.c:317-367: it blocks. *)
Fixpoint writev_bl (o : list ans) (s : conn) : res :=
  match gather 256 (snd s) with
  | [] => Ret Zero (mkC [] (sent s) (wire s)) o
  | v =>
      match o with
      | [] => Wait
      | Intr :: o => writev_bl o s
      | Again :: o | Fail :: o => Ret Neg s o
      | Ok k :: o =>
          let n := taken k (length (concat v)) in
          let '(p, q, d) := consume (snd s) n in
          Ret (if d then Pos else Zero) (advance s p q (firstn n (concat v))) o
      end
  end.

(** ** Memory, with send *)
(** src/mln_connection.c:383-401 and 446-464: the bytes copied to a buffer of 8192 bytes. *)
Fixpoint collect (room : nat) (c : chain) : list N :=
  match c with
  | [] => []
  | None :: r => collect room r
  | Some (File _ _ _ _) :: _ => []
  | Some (Mem _ a m) :: r =>
      if Nat.ltb room (length a) then firstn room a
      else a ++ (if m then [] else collect (room - length a) r)
  end.
Definition page : nat := N.to_nat 8192.
(** src/mln_connection.c:417-436 and 479-497: whether the buffer is in memory is not asked; a buffer in a file has no [left_pos]. *)
Fixpoint consume2 (c : chain) (n : nat) : option (chain * chain * bool) :=
  match c with
  | [] => Some ([], [], false)
  | None :: r => x <- consume2 r n ;; let '(p, q, d) := x in Some (None :: p, q, d)
  | Some (File _ _ _ _) :: _ => None
  | Some (Mem b a m) :: r =>
      if Nat.ltb n (length a) then Some ([], Some (Mem (b ++ firstn n a) (skipn n a) m) :: r, false)
      else if m || Nat.eqb (n - length a) 0 then Some ([Some (Mem (b ++ a) [] m)], r, m)
      else x <- consume2 r (n - length a) ;; let '(p, q, d) := x in Some (Some (Mem (b ++ a) [] m) :: p, q, d)
  end.
(** src/mln_connection.c:378-441 *)
Fixpoint send_nb (o : list ans) (s : conn) : res :=
  match collect page (snd s) with
  | [] => Ret Zero s o
  | v =>
      match o with
      | [] => Wait
      | Intr :: o => send_nb o s
      | Again :: o => Ret Zero s o
      | Fail :: o => Ret Neg s o
      | Ok k :: o =>
          let n := taken k (length v) in
          match consume2 (snd s) n with
          | None => Bad
          | Some (p, q, d) =>
              let s := advance s p q (firstn n v) in
              if d then Ret Pos s o else send_nb o s
          end
      end
  end.
(** src/mln_connection.c:443-500 *)
Fixpoint send_bl (o : list ans) (s : conn) : res :=
  match collect page (snd s) with
  | [] => Ret Zero s o
  | v =>
      match o with
      | [] => Wait
      | Intr :: o => send_bl o s
      | Again :: o | Fail :: o => Ret Neg s o
      | Ok k :: o =>
          let n := taken k (length v) in
          match consume2 (snd s) n with
          | None => Bad
          | Some (p, q, d) => Ret (if d then Pos else Zero) (advance s p q (firstn n v)) o
          end
      end
  end.

(** ** Files *)
(** Sending one buffer: it went out, or the function returns. *)
Inductive push := PWait | PDone (pos : nat) (w : list N) (o : list ans) | PRet (r : ret) (pos : nat) (w : list N) (o : list ans).
Definition before_push (w : list N) (x : push) : push :=
  match x with PWait => PWait | PDone p w' o => PDone p (w ++ w') o | PRet r p w' o => PRet r p (w ++ w') o end.
(** src/mln_connection.c:523-538 and 558-568: sendfile until nothing is left. Without blocking, the number of bytes asked for stays what it
    was at first ([fixed]); with blocking, it is what is left. At the end of the file the answer is 0, whatever the error number is: the answer
    [Ok] then stands for some other error. *)
Fixpoint sendfile (block : bool) (fixed : nat) (d : list N) (pos last : nat) (o : list ans) : push :=
  match o with
  | [] => PWait
  | Intr :: o => sendfile block fixed d pos last o
  | Again :: o => PRet (if block then Neg else Zero) pos [] o
  | Fail :: o => PRet Neg pos [] o
  | Ok k :: o =>
      let asked := if block then if Nat.leb pos last then last - pos else length d else fixed in
      let n := taken k (Nat.min asked (length d - pos)) in
      if Nat.eqb n 0 then PRet Neg pos [] o
      else
        let w := firstn n (skipn pos d) in
        if Nat.eqb (pos + n) last then PDone (pos + n) w o
        else before_push w (sendfile block fixed d (pos + n) last o)
  end.
(** src/mln_connection.c:602-624 and 653-674: read and send 4096 bytes at a time. [got] is how many bytes wait to be sent; without blocking it
    goes on until nothing is left, with blocking there is one round. *)
Fixpoint readsend (block : bool) (d : list N) (pos last : nat) (got : option nat) (o : list ans) : push :=
  match o with
  | [] => PWait
  | Intr :: o => readsend block d pos last got o
  | a :: o =>
      match got with
      | None =>
          match a with
          | Ok k =>
              let asked := Nat.min (if Nat.leb pos last then last - pos else length d) 4096 in
              let n := taken k (Nat.min asked (length d - pos)) in
              if Nat.eqb n 0 then PRet Neg pos [] o else readsend block d pos last (Some n) o
          | _ => PRet Neg pos [] o
          end
      | Some l =>
          match a with
          | Ok k =>
              let n := taken k l in
              let w := firstn n (skipn pos d) in
              if Nat.eqb (pos + n) last then PDone (pos + n) w o
              else if block then PRet Zero (pos + n) w o
              else before_push w (readsend block d (pos + n) last None o)
          | Again => PRet (if block then Neg else Zero) pos [] o
          | _ => PRet Neg pos [] o
          end
      end
  end.

(** src/mln_connection.c:505-544 mln_tcp_conn_send_chain_file with sendfile, without blocking. [c] is the queue. *)
Fixpoint file_nb (c : chain) (t : chain) (w : list N) (o : list ans) : res :=
  match c with
  | [] => Ret Pos (mkC [] t w) o
  | None :: r => file_nb r (t ++ [None]) w o
  | Some (Mem _ _ _) :: _ => Ret Pos (mkC c t w) o
  | Some (File d pos last m) :: r =>
      match (if Nat.eqb pos last then PDone pos [] o else sendfile false (if Nat.leb pos last then last - pos else length d) d pos last o) with
      | PWait => Wait
      | PRet e p w' o => Ret e (mkC (Some (File d p last m) :: r) t (w ++ w')) o
      | PDone p w' o =>
          let t := t ++ [Some (File d p last m)] in
          if m then Ret Pos (mkC r t (w ++ w')) o else file_nb r t (w ++ w') o
      end
  end.
(** src/mln_connection.c:546-574: with blocking. *)
Fixpoint file_bl (c : chain) (t : chain) (w : list N) (o : list ans) : res :=
  match c with
  | [] => Ret Zero (mkC [] t w) o
  | None :: r => file_bl r (t ++ [None]) w o
  | Some b :: r =>
      if some_left b then
        match b with
        | Mem _ _ _ => Ret Zero (mkC c t w) o
        | File d pos last m =>
            match sendfile true 0 d pos last o with
            | PWait => Wait
            | PRet e p w' o => Ret e (mkC (Some (File d p last m) :: r) t (w ++ w')) o
            | PDone p w' o => Ret (if m then Pos else Zero) (mkC r (t ++ [Some (File d p last m)]) (w ++ w')) o
            end
        end
      else if mark b then Ret Pos (mkC r (t ++ [Some b]) w) o
      else file_bl r (t ++ [Some b]) w o
  end.
(** src/mln_connection.c:576-631: with read and send, without blocking. *)
Fixpoint file2_nb (c : chain) (t : chain) (w : list N) (o : list ans) : res :=
  match c with
  | [] => Ret Zero (mkC [] t w) o
  | None :: r => file2_nb r (t ++ [None]) w o
  | Some (Mem _ _ _) :: _ => Ret Zero (mkC c t w) o
  | Some (File d pos last m) :: r =>
      match (if Nat.eqb pos last then PDone pos [] o else readsend false d pos last None o) with
      | PWait => Wait
      | PRet e p w' o => Ret e (mkC (Some (File d p last m) :: r) t (w ++ w')) o
      | PDone p w' o =>
          let t := t ++ [Some (File d p last m)] in
          if m then Ret Pos (mkC r t (w ++ w')) o else file2_nb r t (w ++ w') o
      end
  end.
(** src/mln_connection.c:633-680: with blocking. *)
Fixpoint file2_bl (c : chain) (t : chain) (w : list N) (o : list ans) : res :=
  match c with
  | [] => Ret Zero (mkC [] t w) o
  | None :: r => file2_bl r (t ++ [None]) w o
  | Some (Mem _ _ _) :: _ => Ret Zero (mkC c t w) o
  | Some (File d pos last m) :: r =>
      if Nat.eqb pos last then
        let t := t ++ [Some (File d pos last m)] in
        if m then Ret Pos (mkC r t w) o else file2_bl r t w o
      else
        match readsend true d pos last None o with
        | PWait => Wait
        | PRet e p w' o => Ret e (mkC (Some (File d p last m) :: r) t (w ++ w')) o
        | PDone p w' o => Ret (if m then Pos else Zero) (mkC r (t ++ [Some (File d p last m)]) (w ++ w')) o
        end
  end.

(** ** mln_tcp_conn_send *)
(** How the library is built, and the flag of the socket. *)
Record build := mkB { has_writev : bool; has_sendfile : bool; blocks : bool }.
Definition send_memory (b : build) (s : conn) (o : list ans) : res :=
  if has_writev b then if blocks b then writev_bl o s else writev_nb o s
  else if blocks b then send_bl o s else send_nb o s.
Definition send_file (b : build) (s : conn) (o : list ans) : res :=
  if has_sendfile b then if blocks b then file_bl (snd s) (sent s) (wire s) o else file_nb (snd s) (sent s) (wire s) o
  else if blocks b then file2_bl (snd s) (sent s) (wire s) o else file2_nb (snd s) (sent s) (wire s) o.
Definition head_in_file (s : conn) : bool := match snd s with Some (File _ _ _ _) :: _ => true | _ => false end.
Definition head_in_memory (s : conn) : bool := match snd s with Some (Mem _ _ _) :: _ => true | _ => false end.
(** include/mln_connection.h:24-27 *)
Inductive code := FINISH | NOTYET | ERROR | CLOSED.
Definition code_of (r : ret) : code := match r with Pos => FINISH | Zero => NOTYET | Neg => ERROR end.
Inductive outcome := Waits | Undefined | Returns (r : code) (s : conn) (o : list ans).
(** src/mln_connection.c:218-248: the two labels; each round takes at least one node from the queue, so [fuel] is enough. *)
Fixpoint send_loop (fuel : nat) (b : build) (s : conn) (o : list ans) : outcome :=
  match fuel with
  | O => Undefined
  | S fuel =>
      match send_memory b s o with
      | Wait => Waits
      | Bad => Undefined
      | Ret Zero s o =>
          if head_in_file s then
            match send_file b s o with
            | Wait => Waits
            | Bad => Undefined
            | Ret Zero s o => if head_in_memory s then send_loop fuel b s o else Returns NOTYET s o
            | Ret r s o => Returns (code_of r) s o
            end
          else Returns NOTYET s o
      | Ret r s o => Returns (code_of r) s o
      end
  end.
Definition conn_send (b : build) (s : conn) (o : list ans) : outcome :=
  match snd s with [] => Returns NOTYET s o | _ => send_loop (S (length (snd s))) b s o end.

(** ** mln_tcp_conn_recv *)
(** What the other side has sent and was not read, and the queue of what was. *)
Record inbox := mkI { coming : list N; rcv : chain }.
Inductive rres := RWaits | RReturns (r : code) (s : inbox) (o : list ans).
(** src/mln_connection.c:744-782 mln_tcp_conn_recv_chain and 817-845 mln_tcp_conn_recv_chain_mem, in memory; [Ok] with nothing coming is the end
    of the stream. Results of one attempt: a piece, or the end, or an error number. *)
Inductive got := GPiece (l : list N) | GEnd | GIntr | GAgain | GFail.
Definition recv1 (s : inbox) (a : ans) : got :=
  match a with
  | Intr => GIntr
  | Again => GAgain
  | Fail => GFail
  | Ok k => match taken k (Nat.min 1024 (length (coming s))) with O => GEnd | n => GPiece (firstn n (coming s)) end
  end.
(** src/mln_connection.c:711-742 mln_tcp_conn_recv *)
Fixpoint recv_mem (block : bool) (s : inbox) (o : list ans) : rres :=
  match o with
  | [] => RWaits
  | a :: o =>
      match recv1 s a with
      | GPiece l =>
          let s := mkI (skipn (length l) (coming s)) (rcv s ++ [Some (Mem [] l false)]) in
          if block then RReturns NOTYET s o else recv_mem block s o
      | GEnd => RReturns CLOSED s o
      | GIntr => recv_mem block s o
      | GAgain => RReturns NOTYET s o
      | GFail => RReturns ERROR s o
      end
  end.
(** src/mln_connection.c:784-815 mln_tcp_conn_recv_chain_file: a new temporary file for each piece, or, to follow ([follow]), the file of the
    last buffer. The file system has answers of its own, [f]: to opening the file, not asked when following, and to write. What write takes is
    not compared with what there was. Errors are not EINTR or EAGAIN. The position of the descriptor is the end of the file. *)
Definition last_file (c : chain) : option (list N * nat) :=
  match last c None with Some (File d _ l _) => Some (d, l) | _ => None end.
(** The file to write to, and where the piece is said to start; the answers that are left. *)
Definition the_file (follow : bool) (c : chain) (f : list ans) : option (option (list N * nat) * list ans) :=
  match (if follow then last_file c else None) with
  | Some x => Some (Some x, f)
  | None => match f with [] => None | Ok _ :: f => Some (Some ([], O), f) | _ :: f => Some (None, f) end
  end.
Fixpoint recv_file (block follow : bool) (s : inbox) (o f : list ans) : rres :=
  match o with
  | [] => RWaits
  | a :: o =>
      match recv1 s a with
      | GPiece l =>
          let more := skipn (length l) (coming s) in
          match the_file follow (rcv s) f with
          | None => RWaits
          | Some (None, _) => RReturns ERROR (mkI more (rcv s)) o
          | Some (Some (d, from), []) => RWaits
          | Some (Some (d, from), Ok k :: f) =>
              let s := mkI more (rcv s ++ [Some (File (d ++ firstn (taken k (length l)) l) from (from + length l) false)]) in
              if block then RReturns NOTYET s o else recv_file block follow s o f
          | Some (Some (d, from), _ :: f) => RReturns ERROR (mkI more (rcv s)) o
          end
      | GEnd => RReturns CLOSED s o
      | GIntr => recv_file block follow s o f
      | GAgain => RReturns NOTYET s o
      | GFail => RReturns ERROR s o
      end
  end.

(** * What sending messages between processes means *)
Require Import List Arith NArith Bool.
Require Import Verif.Base Verif.ConnModel Verif.ConnSpec Verif.IpcModel.
Import ListNotations.
Open Scope N_scope.

Definition message := (N * bytes)%type.
(** A message that can be sent: its type is a 32-bit number, its bytes are bytes, and four more than them can be counted with 32 bits. *)
Definition fits (m : message) : Prop := fst m < 2^32 /\ 4 + N.of_nat (length (Datatypes.snd m)) < 2^32 /\ Forall (fun x => x < 256) (Datatypes.snd m).

Section Histories.
Variable does : call -> table -> table.
(** Messages that arrive in this order: for each, the handler that is set for its type is called with its bytes, if there is one. *)
Fixpoint arrive (t : table) (ms : list message) : table * list call :=
  match ms with
  | [] => (t, [])
  | (type, msg) :: ms =>
      match search t type with
      | Some (Some h) => let (t', l) := arrive (does (h, msg) t) ms in (t', (h, msg) :: l)
      | _ => arrive t ms
      end
  end.

(** Two processes and the socket between them. One sends; its loop calls the handler for sending when the socket takes bytes. The loop of the other
    calls the handler for receiving, and there handlers are set. *)
Inductive op :=
| Say (m : message)
| Flush (o : list ans)
| Hear (block : bool) (o : list ans)
| Assign (type : N) (h : option N) (mem_handler mem_node : bool).
Record system := mkS { out : conn; inb : inbox; rdr : reader; tab : table; made : list call }.
Definition start (t : table) : system := mkS conn_new (mkI [] []) reader_new t [].
(** Whatever the socket took is coming to the other side. [None] if a call does not return, or the connection is lost. *)
Definition step (b : build) (s : system) (x : op) : option system :=
  match x with
  | Say m => match send_prepare (out s) (fst m) (Datatypes.snd m) with Some c => Some (mkS c (inb s) (rdr s) (tab s) (made s)) | None => None end
  | Flush o =>
      match fd_send (S (length o)) b (out s) o with
      | Sent c _ => Some (mkS c (mkI (coming (inb s) ++ skipn (length (wire (out s))) (wire c)) (rcv (inb s))) (rdr s) (tab s) (made s))
      | _ => None
      end
  | Hear block o =>
      match fd_receive does block (inb s) (rdr s) (tab s) o [] with
      | Next i r t l => Some (mkS (out s) i r t (made s ++ l))
      | _ => None
      end
  | Assign type h a n => Some (mkS (out s) (inb s) (rdr s) (Datatypes.snd (handler_set (tab s) type h a n)) (made s))
  end.
Fixpoint run (b : build) (s : system) (ops : list op) : option system :=
  match ops with [] => Some s | x :: ops => match step b s x with Some s => run b s ops | None => None end end.

(** What a user expects: messages are under way in the order they were sent; whenever the other side listens, some of those that are under way
    arrive, the oldest first. Setting a handler with memory replaces the handler for its type, and only that. *)
Inductive expected (t0 : table) : list op -> table -> list message -> list call -> Prop :=
| exp_start : expected t0 [] t0 [] []
| exp_say ops t way l m : expected t0 ops t way l -> expected t0 (ops ++ [Say m]) t (way ++ [m]) l
| exp_flush ops t way l o : expected t0 ops t way l -> expected t0 (ops ++ [Flush o]) t way l
| exp_hear ops t t' got way l l' block o : expected t0 ops t (got ++ way) l -> arrive t got = (t', l') -> expected t0 (ops ++ [Hear block o]) t' way (l ++ l')
| exp_assign ops t way l type h a n : expected t0 ops t way l -> expected t0 (ops ++ [Assign type h a n]) (Datatypes.snd (handler_set t type h a n)) way l.
End Histories.

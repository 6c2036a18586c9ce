(** * Messages between processes: the theorems *)
Require Import List Arith NArith ZArith Bool Lia.
Require Import ZifyBool ZifyNat ZifyN.
Require Import Verif.Base Verif.ConnModel Verif.ConnSpec Verif.ConnProofs Verif.IpcModel Verif.IpcSpec Verif.IpcProofs.
Import ListNotations.
Open Scope N_scope.

(** ** Sending and receiving *)
(** However messages are sent, the socket takes and gives bytes, loops call their handlers, and handlers are set and set others: the handlers that
    are called, and what with, are those of a history in which messages arrive whole, once and in the order they were sent. When no byte is left to
    be sent or to be received, all have arrived. *)
Theorem ipc_messages : forall does b t ops s, plain_build b \/ has_writev b = true -> (forall m, In (Say m) ops -> fits m) -> run does b (start t) ops = Some s ->
  exists way, expected does t ops (tab s) way (made s) /\ (coming (inb s) = [] -> pending (snd (out s)) = [] -> way = []).
Proof.
  intros does b t ops s B F E. destruct (run_ok does b B ops [] (start t) [] t s (inv_start b t) F E (exp_start does t)) as (way & I & X). exists way. split; [exact X|].
  intros C P. eapply inv_done; eauto.
Qed.
Print Assumptions ipc_messages.
(** At any time receiving goes well: it waits for the socket, or finds the connection lost, or goes on. *)
Theorem ipc_receives : forall does b t ops s block o, plain_build b \/ has_writev b = true -> (forall m, In (Say m) ops -> fits m) -> run does b (start t) ops = Some s ->
  match fd_receive does block (inb s) (rdr s) (tab s) o [] with NBroken | NSpins | NFuel => False | _ => True end.
Proof.
  intros does b t ops s block o B F E. destruct (run_ok does b B ops [] (start t) [] t s (inv_start b t) F E (exp_start does t)) as (way & I & X).
  pose proof (fd_receive_ok does b s way block o I) as R. destruct (fd_receive does block (inb s) (rdr s) (tab s) o []); auto.
Qed.
Print Assumptions ipc_receives.
(** Handler 8 sets handler 9 for the type of the next message; 5 has no handler. *)
Definition ipc_does (c : call) (t : table) : table := if fst c =? 8 then Datatypes.snd (handler_set t 3 (Some 9) true true) else t.
Definition ipc_ops : list op :=
  [Assign 1 (Some 8) true true; Assign 3 (Some 7) true true; Say (1, [10; 11]); Say (5, [1]); Flush [Ok 3; Again]; Hear false [Ok 2; Ok 9; Again]; Say (3, []); Say (3, [20; 21; 22]);
   Flush [Ok 15; Ok 9; Ok 9; Ok 5; Again]; Hear false [Ok 100; Intr; Again]; Flush [Ok 99]; Hear true [Ok 99]].
Example ipc_ex : (forall m, In (Say m) ipc_ops -> fits m) /\
  match run ipc_does (mkB false false false) (start []) ipc_ops with
  | Some s => made s = [(8, [10; 11]); (9, []); (9, [20; 21; 22])] /\ coming (inb s) = [] /\ pending (snd (out s)) = []
  | None => False
  end /\
  match run ipc_does (mkB true true false) (start []) ipc_ops with
  | Some s => made s = [(8, [10; 11]); (9, []); (9, [20; 21; 22])] /\ coming (inb s) = [] /\ pending (snd (out s)) = []
  | None => False
  end.
Proof.
  split; [|vm_compute; auto]. intros m H. repeat (destruct H as [H|H]; [try discriminate; injection H as <-; repeat split; cbn; try lia; repeat constructor|]). destruct H.
Qed.

(** ** Setting handlers *)
(** With memory, the handler is set for its type, in place of the one before it, and other types keep theirs. *)
Theorem ipc_handler_set : forall t type h type', exists t', handler_set t type h true true = (true, t') /\ search t' type' = if type' =? type then Some h else search t type'.
Proof.
  intros t ty h ty'. unfold handler_set. cbn [negb]. eexists. split; [reflexivity|]. unfold search at 1. cbn [find fst]. rewrite (N.eqb_sym ty' ty). destruct (ty =? ty') eqn:E; [reflexivity|]. apply N.eqb_neq in E.
  destruct (search t ty) as [x|]; [|reflexivity]. clear x. unfold search. replace (find (fun x => fst x =? ty') (delete t ty)) with (find (fun x => fst x =? ty') t); [reflexivity|].
  induction t as [|[k v] t IH]; [reflexivity|]. cbn [find delete filter fst]. fold (delete t ty). destruct (k =? ty') eqn:K; destruct (k =? ty) eqn:K2; cbn [negb find fst]; rewrite ?K; auto.
  exfalso. apply E. apply N.eqb_eq in K, K2. congruence.
Qed.
Print Assumptions ipc_handler_set.
Example ipc_ex_set : search (Datatypes.snd (handler_set [(1, Some 5); (2, Some 6)] 2 (Some 7) true true)) 2 = Some (Some 7) /\ search (Datatypes.snd (handler_set [(1, Some 5); (2, Some 6)] 2 (Some 7) true true)) 1 = Some (Some 5).
Proof. split; reflexivity. Qed.
(** When setting fails the handler before may be gone. *)
Theorem ipc_handler_set_refuted : ~ (forall t type h a n t', handler_set t type h a n = (false, t') -> search t' type = search t type).
Proof. intros H. specialize (H [(1, Some 5)] 1 (Some 6) true false [] eq_refl). discriminate. Qed.
Print Assumptions ipc_handler_set_refuted.

(** ** What goes wrong *)
(** Proved only when all of the message has been received: without memory for it, that message is lost, and those behind it arrive. *)
Theorem ipc_no_memory_partial : forall does c t m ms, Forall in_memory c -> Forall fits (m :: ms) -> pending c = frames (m :: ms) ->
  exists r' c' t' l, process does (S (S (held c))) reader_new c t [false] = Rests r' c' t' l /\ arrive does t ms = (t', l) /\ pending c' = [].
Proof. intros does c t m ms M F E. destruct (no_memory_ok does c t m ms M F E) as (r' & c' & t' & l & P1 & P2 & P3 & _). exists r', c', t', l. auto. Qed.
Print Assumptions ipc_no_memory_partial.
Example ipc_ex_memory : pending [Some (Mem [] [5; 0; 0]%N false); Some (Mem [] [0; 1; 0; 0; 0; 9; 4; 0; 0; 0; 2; 0; 0; 0]%N false)] = frames [(1, [9]); (2, [])] /\
  process (fun _ t => t) 20 reader_new [Some (Mem [] [5; 0; 0]%N false); Some (Mem [] [0; 1; 0; 0; 0; 9; 4; 0; 0; 0; 2; 0; 0; 0]%N false)] [(1, Some 1); (2, Some 2)] [false] =
    Rests (mkR false 4 false 0) [] [(1, Some 1); (2, Some 2)] [(2, [])].
Proof. split; vm_compute; reflexivity. Qed.
(** When part of it is still to come, the process loops for ever: throwing away waits for bytes that are never read. *)
Theorem ipc_no_memory_refuted : ~ (forall does c t m, Forall in_memory c -> fits m -> (exists later, pending c ++ later = frames [m]) -> process does (S (S (held c))) reader_new c t [false] <> Spins).
Proof.
  intros H. apply (H (fun _ t => t) [Some (Mem [] [5; 0; 0; 0; 1]%N false)] [] (1, [9])).
  - repeat constructor.
  - repeat split; cbn; try lia. repeat constructor.
  - exists [0; 0; 0; 9]. reflexivity.
  - vm_compute. reflexivity.
Qed.
Print Assumptions ipc_no_memory_refuted.
(** The other process has sent messages and ended: its socket never says that there is nothing yet. Whatever of the messages has been received,
    none of them is handled. *)
Theorem ipc_closed_refuted : (forall does i r t o al, ~ In Again o -> fd_receive does false i r t o al = NWaits \/ fd_receive does false i r t o al = NLost) /\
  ~ (forall does i t type h msg o, coming i = frame (type, msg) -> rcv i = [] -> fits (type, msg) -> search t type = Some (Some h) -> (length (coming i) <= length o)%nat ->
     exists i' r' t' l, fd_receive does false i reader_new t o [] = Next i' r' t' l /\ In (h, msg) l).
Proof.
  split.
  - intros does i r t o al N1. unfold fd_receive. pose proof (recv_closed o i N1) as H. destruct (recv_mem false i o) as [|[] s o']; auto. destruct H.
  - intros H. destruct (H (fun _ t => t) (mkI (frame (1, [9])) []) [(1, Some 3)] 1 3 [9] (repeat (Ok 9) 9)) as (i' & r' & t' & l & E & _); try reflexivity.
    + repeat split; cbn; try lia. repeat constructor.
    + vm_compute in E. discriminate.
Qed.
Print Assumptions ipc_closed_refuted.
(** The same bytes are handled if the call before the end takes them. *)
Example ipc_ex_closed : fd_receive (fun _ t => t) false (mkI (frame (1, [9])) []) reader_new [(1, Some 3)] [Ok 9; Again] [] = Next (mkI [] []) (mkR false 5 false 0) [(1, Some 3)] [(3, [9])] /\
  fd_receive (fun _ t => t) false (mkI (frame (1, [9])) []) reader_new [(1, Some 3)] [Ok 9; Ok 9] [] = NLost.
Proof. split; vm_compute; reflexivity. Qed.
(** A length below four, which is never sent but may arrive from a process that is not well: bytes behind the message are read. *)
Theorem ipc_short_refuted : ~ (forall does i r t o, match fd_receive does false i r t o [] with NBroken => False | _ => True end).
Proof. intros H. specialize (H (fun _ t => t) (mkI [2; 0; 0; 0; 1; 0] []) reader_new [] [Ok 9; Again]). vm_compute in H. exact H. Qed.
Print Assumptions ipc_short_refuted.
(** A message of 2^32 - 4 bytes or more: more is copied than the buffer holds. *)
Theorem ipc_long_refuted : (forall s type msg, 2^32 <= 4 + N.of_nat (length msg) -> send_prepare s type msg = None) /\ ~ (forall s type msg, exists s', send_prepare s type msg = Some s').
Proof.
  assert (A : forall s type msg, 2^32 <= 4 + N.of_nat (length msg) -> send_prepare s type msg = None).
  { intros s ty msg H. unfold send_prepare. assert (L : (4 + N.of_nat (length msg)) mod 2^32 < 2^32) by (apply N.mod_lt; discriminate). replace (_ <? _) with true; [reflexivity|]. symmetry. apply N.ltb_lt.
    clear - H L. revert H L. generalize ((4 + N.of_nat (length msg)) mod 2^32). intros x. change (2^32) with 4294967296. lia. }
  split; [exact A|]. intros H. destruct (H conn_new 1 (repeat 0 (N.to_nat (2^32)))) as [s' E]. rewrite A in E; [discriminate|]. rewrite repeat_length, N2Nat.id. discriminate.
Qed.
Print Assumptions ipc_long_refuted.

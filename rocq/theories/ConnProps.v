(** * Theorems about sending and receiving over a connection *)
Require Import List Arith NArith Bool Lia.
Require Import Verif.Base Verif.ConnModel Verif.ConnSpec Verif.ConnProofs.
Import ListNotations.

(** ** One call *)
(** Whatever is queued, and however much the socket takes each time, a call that returns has handed over a beginning of the bytes that were to be
    sent, in order; what it has not is still queued, and the nodes that were sent are in the other queue, in order, with nothing left in them. The
    answer is that all was sent exactly if a marked buffer was sent, which is then the last one sent. The call is defined. *)
Theorem conn_send_in_order : forall b s o, plain_build b -> Forall sound (snd s) ->
  match conn_send b s o with
  | Waits => True
  | Undefined => False
  | Returns r s' o' => exists p, goes s s' p [] /\ verdict r p /\ Forall sound (snd s')
  end.
Proof.
  intros b s o B H. pose proof (conn_send_ok b s o B H) as C. destruct (conn_send b s o) as [| |r s' o']; auto.
  destruct C as (p & u & G & K & V & _). exists p. split; [exact G|]. split; [exact V|]. apply K. exact H.
Qed.
Print Assumptions conn_send_in_order.

(** Without blocking, the answer that there is more to come means that the socket would block, or that nothing is left. *)
Theorem conn_send_drains : forall s o s' o', Forall sound (snd s) -> Forall lively (snd s) ->
  conn_send (mkB false false false) s o = Returns NOTYET s' o' -> (exists u, used o o' u /\ In Again u) \/ (snd s' = [] /\ wire s' = wire s ++ pending (snd s)).
Proof.
  intros s o s' o' S1 L1 E. pose proof (conn_send_ok (mkB false false false) s o ltac:(split; auto) S1) as C. rewrite E in C. destruct C as (p & u & G & K & V & U & Z).
  destruct (Z eq_refl) as [I1|[I1|I1]]; [left; exists u; auto|discriminate|right]. specialize (I1 L1). split; [exact I1|]. destruct G as (_ & _ & _ & _ & W). rewrite I1 in W. unfold pending in W at 1. cbn [map concat] in W. now rewrite app_nil_r in W.
Qed.
Print Assumptions conn_send_drains.

Definition ex_chain : chain := [Some (Mem [] [1; 2; 3]%N false); Some (File [9; 4; 5; 6; 9]%N 1 4 false); None; Some (Mem [] [7]%N true); Some (Mem [] [8]%N false)].
Example ex_send : plain_build (mkB false false false) /\ Forall sound ex_chain /\
  conn_send (mkB false false false) (append_chain conn_new ex_chain) [Ok 2; Intr; Ok 1; Ok 3; Ok 1; Ok 9; Ok 9; Ok 5] =
    Returns FINISH (mkC [Some (Mem [] [8]%N false)]
      [Some (Mem [1; 2; 3]%N [] false); Some (File [9; 4; 5; 6; 9]%N 4 4 false); None; Some (Mem [7]%N [] true)] [1; 2; 3; 4; 5; 6; 7]%N) [].
Proof. split; [split; auto|]. split; [repeat constructor|]. vm_compute. reflexivity. Qed.
Example ex_send_blocking : plain_build (mkB false true true) /\
  conn_send (mkB false true true) (append_chain conn_new ex_chain) [Ok 5; Intr; Ok 1; Ok 5] =
    Returns NOTYET (mkC [None; Some (Mem [] [7]%N true); Some (Mem [] [8]%N false)]
      [Some (Mem [1; 2; 3]%N [] false); Some (File [9; 4; 5; 6; 9]%N 4 4 false)] [1; 2; 3; 4; 5; 6]%N) [].
Proof. split; [split; auto|]. vm_compute. reflexivity. Qed.
Definition ex_lively : chain := [Some (Mem [] [1; 2; 3]%N false); Some (File [9; 4; 5; 6; 9]%N 1 4 false); Some (Mem [] [7]%N false)].
Example ex_drains : Forall sound ex_lively /\ Forall lively ex_lively /\
  conn_send (mkB false false false) (append_chain conn_new ex_lively) [Ok 9; Ok 9; Ok 1; Ok 9; Ok 9; Ok 9] =
    Returns NOTYET (mkC [] [Some (Mem [1; 2; 3]%N [] false); Some (File [9; 4; 5; 6; 9]%N 4 4 false); Some (Mem [7]%N [] false)] [1; 2; 3; 4; 5; 6; 7]%N) [].
Proof. split; [repeat constructor|]. split; [repeat constructor|]. vm_compute. reflexivity. Qed.

(** For buffers in memory, an error is answered only if the system failed, or if a socket that is used as one that blocks would have blocked. *)
Theorem conn_send_error : forall b s o s' o', plain_build b -> Forall in_memory (snd s) -> conn_send b s o = Returns ERROR s' o' ->
  exists u, used o o' u /\ (In Fail u \/ blocks b = true /\ In Again u).
Proof. exact conn_send_blames. Qed.
Print Assumptions conn_send_error.
Definition ex_words : chain := [Some (Mem [] [1; 2; 3]%N false); None; Some (Mem [] [7]%N true)].
Example ex_error : Forall in_memory ex_words /\
  conn_send (mkB false false false) (append_chain conn_new ex_words) [Ok 2; Intr; Fail; Ok 3] = Returns ERROR (mkC [Some (Mem [1; 2]%N [3]%N false); None; Some (Mem [] [7]%N true)] [] [1; 2]%N) [Ok 3] /\
  conn_send (mkB false false false) (append_chain conn_new ex_words) [Ok 2; Intr; Again; Ok 3] = Returns NOTYET (mkC [Some (Mem [1; 2]%N [3]%N false); None; Some (Mem [] [7]%N true)] [] [1; 2]%N) [Ok 3].
Proof. split; [repeat constructor|]. split; vm_compute; reflexivity. Qed.

(** Whatever the build, and files or not: what the socket has taken stays as it is, and more is put behind it. *)
Theorem conn_send_extends : forall b s o r s' o', conn_send b s o = Returns r s' o' -> exists w, wire s' = wire s ++ w.
Proof. exact ConnProofs.conn_send_extends. Qed.
Print Assumptions conn_send_extends.
Example ex_extends : match conn_send (mkB false false false) (mkC ex_chain [] [7; 7]%N) [Ok 2; Ok 1; Ok 3; Ok 2; Again] with
  | Returns _ s' _ => wire s' = [7; 7; 1; 2; 3; 4; 5]%N
  | _ => False
  end.
Proof. vm_compute. reflexivity. Qed.

(** ** Histories *)
(** However chains are queued, sending is called and what was sent is taken away: what was taken, what is in the queue of what was sent and what
    is still to be sent are the nodes that were queued, in order; the socket has got the bytes of what was queued, in order and once, up to those
    that are still to be sent. *)
Theorem conn_history : forall b ops s t, plain_build b -> Forall sound (queued ops) -> history b ops conn_new [] = Some (s, t) ->
  map whole (t ++ sent s ++ snd s) = map whole (queued ops) /\ pending (t ++ sent s) = [] /\ wire s ++ pending (snd s) = pending (queued ops).
Proof.
  intros b ops s t B S1 E. pose proof (history_ok b B ops conn_new [] S1 eq_refl eq_refl) as H. rewrite E in H. destruct H as (H1 & H2 & H3). auto.
Qed.
Print Assumptions conn_history.
Definition ex_ops : list op := [Queue ex_chain; Send [Ok 2; Again]; Send [Ok 9; Ok 2; Ok 1; Ok 9; Again]; Take; Queue [Some (Mem [] [10; 11]%N true)]; Send [Ok 9; Ok 9; Ok 9]; Take; Send [Ok 2; Ok 9]].
Example ex_history : Forall sound (queued ex_ops) /\
  match history (mkB false false false) ex_ops conn_new [] with
  | Some (s, t) => snd s = [] /\ length t = 4 /\ length (sent s) = 2 /\ wire s = [1; 2; 3; 4; 5; 6; 7; 8; 10; 11]%N
  | None => False
  end.
Proof. split; [repeat constructor|]. vm_compute. auto. Qed.

(** ** With writev *)
(** Proved only for chains in memory whose marked buffers have bytes, and not that the answer is right: all may be said to be sent when the marked
    buffer is still the first of the queue, with bytes to send. Nodes with nothing in them may be released instead of sent. *)
Theorem conn_send_writev_partial : forall b s o, has_writev b = true -> Forall in_memory (snd s) -> Forall (fun x => marked x -> unsent x <> []) (snd s) ->
  match conn_send b s o with
  | Waits => True
  | Undefined => False
  | Returns r s' o' => exists p g, goes s s' p g /\
      (verdict r p \/ r = FINISH /\ Forall (fun y => ~ marked y) p /\ exists x q, snd s' = x :: q /\ marked x /\ unsent x <> []) /\
      (r = NOTYET -> blocks b = true \/ (exists u, used o o' u /\ In Again u) \/ (snd s' = [] /\ wire s' = wire s ++ pending (snd s)))
  end.
Proof.
  intros b s o W M1 M2. assert (T : Forall tidy (snd s)). { rewrite Forall_forall in *. intros x I. split; [now apply M1|now apply M2]. }
  pose proof (conn_send_writev_ok b s o W T) as C. destruct (conn_send b s o) as [| |r s' o']; auto. destruct C as (p & g & u & G & K & V & U & Z).
  exists p, g. split; [exact G|]. split.
  - destruct r; cbn [wverdict] in V; [|left; exact V|left; exact V|destruct V]. destruct V as [V|[V X]]; [left; exact V|right; auto].
  - intros E. destruct (Z E) as [I1|[I1|I1]]; [right; left; exists u; auto|auto|right; right]. split; [exact I1|].
    destruct G as (_ & _ & _ & _ & X). rewrite I1 in X. unfold pending in X at 1. cbn [map concat] in X. now rewrite app_nil_r in X.
Qed.
Print Assumptions conn_send_writev_partial.
Definition ex_memory : chain := [Some (Mem [] [1; 2; 3]%N false); None; Some (Mem [] [] false); Some (Mem [] [4; 5]%N true); Some (Mem [] [6]%N false)].
Example ex_writev : Forall in_memory ex_memory /\ Forall (fun x => marked x -> unsent x <> []) ex_memory /\
  conn_send (mkB true true false) (append_chain conn_new ex_memory) [Ok 2; Intr; Ok 9] =
    Returns FINISH (mkC [Some (Mem [] [6]%N false)]
      [Some (Mem [1; 2; 3]%N [] false); None; Some (Mem [] [] false); Some (Mem [4; 5]%N [] true)] [1; 2; 3; 4; 5]%N) [].
Proof. split; [repeat constructor|]. split; [repeat (apply Forall_cons; [cbn; easy|]); apply Forall_nil|]. vm_compute. reflexivity. Qed.

(** The full statement is false: a file buffer at the head of the queue is released, and never sent, whether the socket blocks or not. *)
Theorem conn_send_writev_refuted : forall m, ~ (forall s o r s' o', Forall sound (snd s) -> Forall lively (snd s) ->
  conn_send (mkB true true m) s o = Returns r s' o' -> wire s' ++ pending (snd s') = wire s ++ pending (snd s)).
Proof.
  intros m H. specialize (H (mkC [Some (File [1; 2; 3]%N 0 3 true)] [] []) [Ok 9] NOTYET (mkC [] [] []) [Ok 9] ltac:(repeat constructor) ltac:(repeat constructor)).
  assert (X : conn_send (mkB true true m) (mkC [Some (File [1; 2; 3]%N 0 3 true)] [] []) [Ok 9] = Returns NOTYET (mkC [] [] []) [Ok 9]) by (destruct m; vm_compute; reflexivity).
  specialize (H X). vm_compute in H. discriminate.
Qed.
Print Assumptions conn_send_writev_refuted.
(** So is one behind memory, if the socket does not block; and with blocking, the second of two, by the next call. *)
Theorem conn_send_writev_behind_refuted : ~ (forall m ops s t, Forall sound (queued ops) -> Forall lively (queued ops) -> match queued ops with x :: _ => in_memory x | [] => True end ->
  history (mkB true true m) ops conn_new [] = Some (s, t) -> wire s ++ pending (snd s) = pending (queued ops)) /\
  ~ (forall ops s t, Forall sound (queued ops) -> Forall lively (queued ops) -> match queued ops with x :: _ => in_memory x | [] => True end ->
  history (mkB true true true) ops conn_new [] = Some (s, t) -> wire s ++ pending (snd s) = pending (queued ops)).
Proof.
  split; intros H.
  - specialize (H false [Queue [Some (Mem [] [1]%N false); Some (File [2; 3]%N 0 2 true)]; Send [Ok 9; Ok 9]] (mkC [] [Some (Mem [1]%N [] false)] [1]%N) [] ltac:(repeat constructor) ltac:(repeat constructor) I).
    vm_compute in H. specialize (H eq_refl). discriminate.
  - specialize (H [Queue [Some (Mem [] [1]%N false); Some (File [2; 3]%N 0 2 false); Some (File [4]%N 0 1 true)]; Send [Ok 9; Ok 9]; Send [Ok 9; Ok 9]]
      (mkC [] [Some (Mem [1]%N [] false); Some (File [2; 3]%N 2 2 false)] [1; 2; 3]%N) [] ltac:(repeat constructor) ltac:(repeat constructor) I).
    vm_compute in H. specialize (H eq_refl). discriminate.
Qed.
Print Assumptions conn_send_writev_behind_refuted.
(** All is said to be sent when the socket took only a part of the marked buffer. *)
Theorem conn_finish_writev_refuted : forall m, ~ (forall s o s' o', Forall in_memory (snd s) -> Forall lively (snd s) ->
  conn_send (mkB true true m) s o = Returns FINISH s' o' -> exists p, sent s' = sent s ++ p /\ verdict FINISH p).
Proof.
  intros m H. specialize (H (mkC [Some (Mem [] [1; 2]%N true)] [] []) [Ok 1] (mkC [Some (Mem [1]%N [2]%N true)] [] [1]%N) [] ltac:(repeat constructor) ltac:(repeat constructor)).
  assert (X : conn_send (mkB true true m) (mkC [Some (Mem [] [1; 2]%N true)] [] []) [Ok 1] = Returns FINISH (mkC [Some (Mem [1]%N [2]%N true)] [] [1]%N) []) by (destruct m; vm_compute; reflexivity).
  destruct (H X) as (p & P1 & p' & x & P2 & _). cbn [sent app] in P1. subst p. destruct p'; discriminate.
Qed.
Print Assumptions conn_finish_writev_refuted.
(** What is queued behind an empty marked buffer is released, and never sent. *)
Theorem conn_send_writev_empty_refuted : forall m, ~ (forall s o r s' o', Forall in_memory (snd s) ->
  conn_send (mkB true true m) s o = Returns r s' o' -> wire s' ++ pending (snd s') = wire s ++ pending (snd s)).
Proof.
  intros m H. specialize (H (mkC [Some (Mem [] [] true); Some (Mem [] [1; 2]%N true)] [] []) [Ok 9] NOTYET (mkC [] [] []) [Ok 9] ltac:(repeat constructor)).
  assert (X : conn_send (mkB true true m) (mkC [Some (Mem [] [] true); Some (Mem [] [1; 2]%N true)] [] []) [Ok 9] = Returns NOTYET (mkC [] [] []) [Ok 9]) by (destruct m; vm_compute; reflexivity).
  specialize (H X). vm_compute in H. discriminate.
Qed.
Print Assumptions conn_send_writev_empty_refuted.

(** ** sendfile without blocking, other refutations *)
(** When the socket takes a part of the bytes, bytes behind the part of the file that was queued are sent too. *)
Theorem conn_sendfile_refuted : ~ (forall s o r s' o', Forall sound (snd s) -> Forall lively (snd s) ->
  conn_send (mkB false true false) s o = Returns r s' o' -> exists q, wire s' ++ q = wire s ++ pending (snd s)).
Proof.
  intros H. specialize (H (mkC [Some (File [1; 2; 3; 4]%N 0 2 true)] [] []) [Ok 1; Ok 2; Again] NOTYET (mkC [Some (File [1; 2; 3; 4]%N 3 2 true)] [] [1; 2; 3]%N) [] ltac:(repeat constructor) ltac:(repeat constructor)).
  vm_compute in H. destruct (H eq_refl) as [q E]. discriminate.
Qed.
Print Assumptions conn_sendfile_refuted.
(** All is said to be sent where a marked buffer in memory follows, of which nothing was sent. *)
Theorem conn_finish_sendfile_refuted : ~ (forall s o s' o', Forall sound (snd s) -> Forall lively (snd s) ->
  conn_send (mkB false true false) s o = Returns FINISH s' o' -> exists p, sent s' = sent s ++ p /\ verdict FINISH p).
Proof.
  intros H. specialize (H (mkC [Some (File [1; 2]%N 0 2 false); Some (Mem [] [3]%N true)] [] []) [Ok 9]
    (mkC [Some (Mem [] [3]%N true)] [Some (File [1; 2]%N 2 2 false)] [1; 2]%N) [] ltac:(repeat constructor) ltac:(repeat constructor)).
  vm_compute in H. destruct (H eq_refl) as (p & P1 & p' & x & P2 & M & _). rewrite P2 in P1. destruct p' as [|y [|z p']]; try discriminate. injection P1 as <-. discriminate.
Qed.
Print Assumptions conn_finish_sendfile_refuted.
(** With the builds of [conn_send_in_order]: an empty marked buffer at the end is never sent, so all is never said to be sent; *)
Theorem conn_finish_empty_refuted : ~ (forall b s o r s' o', plain_build b -> Forall sound (snd s) -> Forall (fun x => x <> None) (snd s) -> (exists x, In x (snd s) /\ marked x) ->
  conn_send b s o = Returns r s' o' -> pending (snd s') = [] -> ~ In Again o -> ~ In Fail o -> blocks b = false -> r = FINISH).
Proof.
  intros H. specialize (H (mkB false false false) (mkC [Some (Mem [] [1]%N false); Some (Mem [] [] true)] [] []) [Ok 9] NOTYET (mkC [Some (Mem [] [] true)] [Some (Mem [1]%N [] false)] [1]%N) []
    ltac:(split; auto) ltac:(repeat constructor) ltac:(repeat constructor; discriminate) ltac:(exists (Some (Mem [] [] true)); cbn; auto)).
  vm_compute in H. assert (X : NOTYET = FINISH); [|discriminate]. apply H; auto; intros [X|X]; try discriminate; auto.
Qed.
Print Assumptions conn_finish_empty_refuted.
(** and an empty buffer in memory, or a node without a buffer, in front of a file stops the queue for good. *)
Theorem conn_send_stops_refuted : forall x, x = Some (Mem [] [] false) \/ x = None -> forall m o, let s := mkC [x; Some (File [1; 2]%N 0 2 true)] [] [] in
  conn_send (mkB false false m) s o = Returns NOTYET s o.
Proof. intros x [-> | ->] m o s; destruct m, o; vm_compute; reflexivity. Qed.
Print Assumptions conn_send_stops_refuted.

(** ** Receiving *)
(** Into memory: what is received is appended in pieces of 1 to 1024 bytes; with what is still coming it is what was coming, in order. The
    connection is said to be closed only when nothing more is coming. *)
Theorem conn_recv_memory : forall block s o r s' o', recv_mem block s o = RReturns r s' o' ->
  (exists c, rcv s' = rcv s ++ c /\ Forall piece c /\ pending c ++ coming s' = coming s /\ Forall in_memory c) /\
  match r with FINISH => False | NOTYET => block = true \/ exists u, used o o' u /\ In Again u | CLOSED => coming s' = [] | ERROR => exists u, used o o' u /\ In Fail u end.
Proof.
  intros block s o r s' o' E. pose proof (recv_mem_ok block o s) as H. rewrite E in H. destruct H as [(c & C1 & C2 & C3 & C4) (u & U & V)]. split; [exists c; auto|].
  destruct r; auto; [|exists u; auto]. destruct block; [auto|]. right. exists u. auto.
Qed.
Print Assumptions conn_recv_memory.
Example ex_recv : recv_mem false (mkI [1; 2; 3; 4; 5]%N []) [Ok 2; Intr; Ok 9; Again] = RReturns NOTYET (mkI [] [Some (Mem [] [1; 2]%N false); Some (Mem [] [3; 4; 5]%N false)]) [] /\
  recv_mem false (mkI [1; 2]%N []) [Ok 2; Ok 1] = RReturns CLOSED (mkI [] [Some (Mem [] [1; 2]%N false)]) [].
Proof. split; vm_compute; reflexivity. Qed.

(** Into files, proved only if write takes all it is given; and what was read when the file cannot be opened or written is lost. *)
Theorem conn_recv_file_partial : forall block follow s o f r s' o', Forall full f -> at_end (rcv s) -> recv_file block follow s o f = RReturns r s' o' ->
  at_end (rcv s') /\ r <> FINISH /\ (r = CLOSED -> coming s' = []) /\
  (r <> ERROR -> exists c, rcv s' = rcv s ++ c /\ Forall piece c /\ pending c ++ coming s' = coming s /\ Forall (fun x => ~ in_memory x) c).
Proof.
  intros block follow s o f r s' o' F A E. pose proof (recv_file_ok block follow o s f F A) as H. rewrite E in H. destruct H as (H1 & H2 & H3 & H4).
  repeat (split; [assumption|]). intros N1. destruct H2 as [H2|H2]; [contradiction|]. exact H2.
Qed.
Print Assumptions conn_recv_file_partial.
Example ex_recv_file : Forall full [Ok (N.to_nat 1024); Ok (N.to_nat 1024); Ok (N.to_nat 1024)] /\
  recv_file false true (mkI [1; 2; 3]%N []) [Ok 2; Ok 2; Ok 1] [Ok (N.to_nat 1024); Ok (N.to_nat 1024); Ok (N.to_nat 1024)] =
    RReturns CLOSED (mkI [] [Some (File [1; 2]%N 0 2 false); Some (File [1; 2; 3]%N 2 3 false)]) [].
Proof. split; [repeat constructor|]. vm_compute. reflexivity. Qed.
(** The full statement is false: a short write is not noticed. *)
Theorem conn_recv_file_refuted : ~ (forall block s o f r s' o', at_end (rcv s) -> recv_file block false s o f = RReturns r s' o' -> r <> ERROR ->
  exists c, rcv s' = rcv s ++ c /\ pending c ++ coming s' = coming s).
Proof.
  intros H. specialize (H true (mkI [1; 2; 3]%N []) [Ok 9] [Ok 1; Ok 1] NOTYET (mkI [] [Some (File [1]%N 0 3 false)]) [] I). vm_compute in H. specialize (H eq_refl ltac:(discriminate)).
  destruct H as (c & C1 & C2). subst c. discriminate.
Qed.
Print Assumptions conn_recv_file_refuted.

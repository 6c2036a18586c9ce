(** * Messages between processes: proofs *)
Require Import List Arith NArith ZArith Bool Lia.
Require Import ZifyBool ZifyNat ZifyN.
Require Import Verif.Base Verif.ConnModel Verif.ConnSpec Verif.ConnProofs Verif.IpcModel Verif.IpcSpec.
Import ListNotations.
Open Scope N_scope.

(** ** Numbers *)
Lemma put32_length n : length (put32 n) = 4%nat.
Proof. reflexivity. Qed.
Lemma get32_put32 n l : n < 2^32 -> get32 (put32 n ++ l) = n.
Proof. intros H. change (2^32) with 4294967296 in H. unfold get32, put32. cbn [app nth]. clear - H. lia. Qed.

Definition frame (m : message) : bytes := put32 (4 + N.of_nat (length (Datatypes.snd m))) ++ put32 (fst m) ++ Datatypes.snd m.
Definition frames (ms : list message) : bytes := concat (map frame ms).
Lemma frames_app a b : frames (a ++ b) = frames a ++ frames b.
Proof. unfold frames. now rewrite map_app, concat_app. Qed.
Lemma frame_length m : length (frame m) = (8 + length (Datatypes.snd m))%nat.
Proof. unfold frame. rewrite !app_length, !put32_length. lia. Qed.

(** ** The queue *)
Lemma in_memory_cases x : in_memory x -> x = None \/ exists b a m, x = Some (Mem b a m).
Proof. destruct x as [[b a m|d p l m]|]; [right; eauto|contradiction|auto]. Qed.
Lemma enough_ok len : forall c size, Forall in_memory c -> size < len -> enough size len c = (len <=? size + N.of_nat (length (pending c))).
Proof.
  induction c as [|x c IH]; intros size F L; cbn [enough].
  - unfold pending. cbn [map concat length]. symmetry. apply N.leb_gt. lia.
  - inversion F as [|? ? F1 F2]; subst. rewrite pending_cons, app_length. destruct (in_memory_cases x F1) as [-> |(b & a & m & ->)]; cbn [left_size unsent length].
    + rewrite (IH size F2 L). reflexivity.
    + destruct (len <=? size + N.of_nat (length a)) eqn:E.
      * symmetry. apply N.leb_le. apply N.leb_le in E. lia.
      * apply N.leb_gt in E. rewrite (IH _ F2 E). f_equal. lia.
Qed.
Lemma takes_ok : forall c len, Forall in_memory c -> 0 < len -> len <= N.of_nat (length (pending c)) ->
  exists c', takes len c = (firstn (N.to_nat len) (pending c), c') /\ pending c' = skipn (N.to_nat len) (pending c) /\ Forall in_memory c'.
Proof.
  induction c as [|x c IH]; intros len F L H.
  - exfalso. unfold pending in H. cbn [map concat length] in H. lia.
  - inversion F as [|? ? F1 F2]; subst. rewrite pending_cons, app_length in H. rewrite !pending_cons.
    destruct (in_memory_cases x F1) as [-> |(b & a & m & ->)]; cbn [takes unsent app].
    + cbn [unsent length] in H. apply IH; auto.
    + cbn [unsent] in H. destruct (len <? N.of_nat (length a)) eqn:E.
      * apply N.ltb_lt in E. eexists. split; [rewrite firstn_app; replace (N.to_nat len - length a)%nat with 0%nat by lia; cbn [firstn]; rewrite app_nil_r; reflexivity|].
        split; [|constructor; auto]. rewrite pending_cons, skipn_app. cbn [unsent]. now replace (N.to_nat len - length a)%nat with 0%nat by lia.
      * apply N.ltb_ge in E. destruct (len - N.of_nat (length a) =? 0) eqn:Z.
        -- apply N.eqb_eq in Z. exists c. assert (N.to_nat len = length a) as -> by lia. rewrite firstn_app, skipn_app, Nat.sub_diag, firstn_all, skipn_all. cbn [firstn skipn app]. rewrite app_nil_r. auto.
        -- apply N.eqb_neq in Z. destruct (IH (len - N.of_nat (length a)) F2 ltac:(lia) ltac:(lia)) as (c' & T & P & M). rewrite T. exists c'. split.
           ++ rewrite firstn_app, (firstn_all2 a) by lia. replace (N.to_nat (len - N.of_nat (length a))) with (N.to_nat len - length a)%nat by lia. reflexivity.
           ++ split; [|exact M]. rewrite P, skipn_app, (skipn_all2 a) by lia. cbn [app]. replace (N.to_nat (len - N.of_nat (length a))) with (N.to_nat len - length a)%nat by lia. reflexivity.
Qed.
Lemma get_buf_ok c len : Forall in_memory c -> 0 < len ->
  match get_buf c len with
  | None => N.of_nat (length (pending c)) < len
  | Some (d, c') => len <= N.of_nat (length (pending c)) /\ d = firstn (N.to_nat len) (pending c) /\ pending c' = skipn (N.to_nat len) (pending c) /\ Forall in_memory c'
  end.
Proof.
  intros F L. unfold get_buf. rewrite (enough_ok len c 0 F L). destruct (len <=? 0 + N.of_nat (length (pending c))) eqn:E.
  - apply N.leb_le in E. destruct (takes_ok c len F L ltac:(lia)) as (c' & -> & P & M). repeat split; auto; lia.
  - apply N.leb_gt in E. lia.
Qed.
Lemma held_pending : forall c, Forall in_memory c -> held c = length (pending c).
Proof.
  induction c as [|x c IH]; intros F; [reflexivity|]. inversion F as [|? ? F1 F2]; subst. rewrite pending_cons, app_length. cbn [held fold_right]. fold (held c). rewrite (IH F2).
  destruct (in_memory_cases x F1) as [-> |(b & a & m & ->)]; reflexivity.
Qed.

(** ** Cutting *)
(** What is known of the message that is being read. *)
Definition pre (r : reader) : bytes := if in_length r then put32 (msg_len r) else [].
Definition wf (r : reader) : Prop := error_bytes r = 0 /\ content r = in_length r /\ msg_len r < 2^32.
Definition blocked (r : reader) (c : chain) : Prop := if in_length r then N.of_nat (length (pending c)) < msg_len r else (length (pending c) < 4)%nat.
Lemma app_cut (a b c d : bytes) k : a ++ b = c ++ d -> length c = k -> (k <= length a)%nat -> firstn k a = c /\ skipn k a ++ b = d.
Proof.
  intros E L K. assert (F : firstn k (a ++ b) = firstn k (c ++ d)) by now rewrite E. assert (G : skipn k (a ++ b) = skipn k (c ++ d)) by now rewrite E.
  rewrite firstn_app in F. rewrite (firstn_app k c) in F. rewrite skipn_app in G. rewrite (skipn_app k c) in G. replace (k - length a)%nat with 0%nat in * by lia. replace (k - length c)%nat with 0%nat in * by lia.
  cbn [firstn skipn] in *. rewrite !app_nil_r in *. rewrite (firstn_all2 c) in F by lia. rewrite (skipn_all2 c) in G by lia. auto.
Qed.

Section Does.
Variable does : call -> table -> table.
Lemma arrive_app t a b : arrive does t (a ++ b) = let (t1, l1) := arrive does t a in let (t2, l2) := arrive does t1 b in (t2, l1 ++ l2).
Proof.
  revert t. induction a as [|[ty m] a IH]; intros t; cbn [arrive app].
  - destruct (arrive does t b); reflexivity.
  - destruct (search t ty) as [[h|]|]; auto. rewrite IH. destruct (arrive does (does (h, m) t) a) as [t1 l1]. destruct (arrive does t1 b); reflexivity.
Qed.
Lemma process_ok : forall fuel r c t ms later, Forall fits ms -> wf r -> Forall in_memory c -> pre r ++ pending c ++ later = frames ms -> (length (pending c) < fuel)%nat ->
  exists r' c' t' l got way, process does fuel r c t [] = Rests r' c' t' l /\ ms = got ++ way /\ arrive does t got = (t', l) /\
    pre r' ++ pending c' ++ later = frames way /\ wf r' /\ Forall in_memory c' /\ blocked r' c'.
Proof.
  induction fuel as [|fuel IH]; intros r c t ms later Fm W Mc E Hf; [lia|].
  assert (Body : forall n c1 m ms', Forall fits (m :: ms') -> n = 4 + N.of_nat (length (Datatypes.snd m)) -> Forall in_memory c1 -> (length (pending c1) <= length (pending c))%nat ->
    pending c1 ++ later = put32 (fst m) ++ Datatypes.snd m ++ frames ms' ->
    exists r' c' t' l got way, 
      match get_buf c1 n with
      | None => Rests (mkR true n true 0) c1 t []
      | Some (d, c) => if n <? 4 then Breaks else let (t, l) := dispatch does t (get32 d) (skipn 4 d) in before l (process does fuel (mkR false n false 0) c t [])
      end = Rests r' c' t' l /\ m :: ms' = got ++ way /\ arrive does t got = (t', l) /\
    pre r' ++ pending c' ++ later = frames way /\ wf r' /\ Forall in_memory c' /\ blocked r' c').
  { clear E W. intros n c1 m ms' Fm' En M1 L1 E1. pose proof (get_buf_ok c1 n M1 ltac:(lia)) as G. pose proof (Forall_inv Fm') as (F1 & F2 & F3). destruct (get_buf c1 n) as [[d c2]|].
    - destruct G as (G1 & G2 & G3 & G4). rewrite app_assoc in E1. destruct (app_cut _ _ _ _ (N.to_nat n) E1 ltac:(rewrite app_length, put32_length; lia) ltac:(lia)) as [K1 K2].
      rewrite <- G2 in K1. rewrite <- G3 in K2. replace (n <? 4) with false by (symmetry; apply N.ltb_ge; lia). rewrite K1, get32_put32 by exact F1.
      change (skipn 4 (put32 (fst m) ++ Datatypes.snd m)) with (Datatypes.snd m).
      assert (Lc : (length (pending c2) < fuel)%nat) by (rewrite G3, skipn_length; lia). assert (Wn : wf (mkR false n false 0)) by (unfold wf; cbn [error_bytes content in_length msg_len]; repeat split; lia).
      unfold dispatch. destruct m as [ty msg]. cbn [fst Datatypes.snd] in *.
      destruct (search t ty) as [[h|]|] eqn:Se.
      + destruct (IH (mkR false n false 0) c2 (does (h, msg) t) ms' later (Forall_inv_tail Fm') Wn G4 K2 Lc) as (r' & c' & t' & l & got & way & P1 & P2 & P3 & P4 & P5 & P6 & P7).
        exists r', c', t', ((h, msg) :: l), ((ty, msg) :: got), way. rewrite P1. cbn [before app]. split; [reflexivity|]. split; [now rewrite P2|]. split; [cbn [arrive]; now rewrite Se, P3|]. auto.
      + destruct (IH (mkR false n false 0) c2 t ms' later (Forall_inv_tail Fm') Wn G4 K2 Lc) as (r' & c' & t' & l & got & way & P1 & P2 & P3 & P4 & P5 & P6 & P7).
        exists r', c', t', l, ((ty, msg) :: got), way. rewrite P1. cbn [before app]. split; [reflexivity|]. split; [now rewrite P2|]. split; [cbn [arrive]; now rewrite Se|]. auto.
      + destruct (IH (mkR false n false 0) c2 t ms' later (Forall_inv_tail Fm') Wn G4 K2 Lc) as (r' & c' & t' & l & got & way & P1 & P2 & P3 & P4 & P5 & P6 & P7).
        exists r', c', t', l, ((ty, msg) :: got), way. rewrite P1. cbn [before app]. split; [reflexivity|]. split; [now rewrite P2|]. split; [cbn [arrive]; now rewrite Se|]. auto.
    - exists (mkR true n true 0), c1, t, [], [], (m :: ms'). split; [reflexivity|]. split; [reflexivity|]. split; [reflexivity|]. unfold pre. cbn [in_length msg_len]. split.
      + unfold frames. cbn [map concat]. unfold frame at 1. rewrite <- En, <- !app_assoc, E1. reflexivity.
      + split; [unfold wf; cbn [error_bytes content in_length msg_len]; repeat split; lia|]. split; [exact M1|]. exact G. }
  destruct r as [il n ct eb]. destruct W as (W1 & W2 & W3). cbn [error_bytes content in_length msg_len] in W1, W2, W3. subst eb ct. cbn [process error_bytes in_length msg_len content N.eqb negb]. unfold pre in E. cbn [in_length msg_len] in E.
  destruct il.
  - destruct ms as [|m ms']; [discriminate|]. unfold frames in E. cbn [map concat] in E. unfold frame at 1 in E. fold (frames ms') in E. rewrite <- app_assoc in E.
    destruct (app_cut _ _ _ _ 4%nat E (put32_length _) ltac:(rewrite put32_length; lia)) as [K1 K2].
    assert (Q : n = 4 + N.of_nat (length (Datatypes.snd m))).
    { pose proof (Forall_inv Fm) as (F1 & F2 & F3). rewrite <- (get32_put32 n []) by exact W3. rewrite <- (get32_put32 (4 + _) []) by exact F2. rewrite !app_nil_r. f_equal. exact K1. }
    change (skipn 4 (put32 n)) with (@nil N) in K2. cbn [app] in K2. rewrite <- app_assoc in K2. apply (Body n c m ms'); auto.
  - cbn [app] in E. pose proof (get_buf_ok c 4 Mc ltac:(lia)) as G. destruct (get_buf c 4) as [[d c1]|].
    + destruct G as (G1 & G2 & G3 & G4). destruct ms as [|m ms']. { exfalso. apply (f_equal (@length N)) in E. rewrite app_length in E. cbn [frames map concat length] in E. lia. }
      unfold frames in E. cbn [map concat] in E. unfold frame at 1 in E. fold (frames ms') in E. rewrite <- app_assoc in E.
      destruct (app_cut _ _ _ _ 4%nat E (put32_length _) ltac:(lia)) as [K1 K2]. change (N.to_nat 4) with 4%nat in G2, G3. rewrite <- G2 in K1. rewrite <- G3 in K2.
      assert (Q : get32 d = 4 + N.of_nat (length (Datatypes.snd m))). { rewrite K1. pose proof (Forall_inv Fm) as (F1 & F2 & F3). rewrite <- (app_nil_r (put32 _)). now apply get32_put32. }
      rewrite <- app_assoc in K2. apply (Body (get32 d) c1 m ms'); auto. rewrite G3, skipn_length. lia.
    + exists (mkR false n false 0), c, t, [], [], ms. split; [reflexivity|]. split; [reflexivity|]. split; [reflexivity|]. split; [exact E|]. split; [unfold wf; cbn [error_bytes content in_length msg_len]; auto|]. split; [exact Mc|].
      unfold blocked. cbn [in_length]. lia.
Qed.
End Does.

(** ** Sending *)
Definition queue_ok (b : build) (c : chain) : Prop := if has_writev b then Forall tidy c else Forall in_memory c.
Definition build_ok (b : build) : Prop := plain_build b \/ has_writev b = true.
Lemma whole_memory x y : whole x = whole y -> in_memory x -> in_memory y.
Proof. destruct x as [[b a m|d p l m]|], y as [[b' a' m'|d' p' l' m']|]; cbn; auto; discriminate. Qed.
Lemma conn_send_step b s o r s' o' : build_ok b -> queue_ok b (snd s) -> conn_send b s o = Returns r s' o' ->
  queue_ok b (snd s') /\ (exists w, wire s' = wire s ++ w) /\ wire s' ++ pending (snd s') = wire s ++ pending (snd s).
Proof.
  intros B Q E. split; [|split; [now apply (ConnProofs.conn_send_extends b s o r s' o')|]]; unfold queue_ok in *; destruct (has_writev b) eqn:W.
  - pose proof (conn_send_writev_ok b s o W Q) as C. rewrite E in C. destruct C as (p & g & u & G & K & V & U & Z). exact K.
  - destruct B as [B|B]; [|congruence]. assert (So : Forall sound (snd s)). { eapply Forall_impl; [|exact Q]. intros [[]|]; cbn; auto; contradiction. }
    pose proof (conn_send_ok b s o B So) as C. rewrite E in C. destruct C as (p & u & (_ & G & _) & _). cbn [app] in G.
    assert (H : forall x y, map whole x = map whole y -> Forall in_memory x -> Forall in_memory y).
    { clear. induction x as [|x c IH]; intros [|y d] E F; try discriminate; [constructor|]. cbn [map] in E. injection E as E1 E2. inversion F; subst. constructor; [eapply whole_memory; eauto|eauto]. }
    apply (H _ _ G) in Q. rewrite Forall_app in Q. apply Q.
  - pose proof (conn_send_writev_ok b s o W Q) as C. rewrite E in C. destruct C as (p & g & u & G & K & V & U & Z). apply G.
  - destruct B as [B|B]; [|congruence]. assert (So : Forall sound (snd s)). { eapply Forall_impl; [|exact Q]. intros [[]|]; cbn; auto; contradiction. }
    pose proof (conn_send_ok b s o B So) as C. rewrite E in C. destruct C as (p & u & G & _). apply G.
Qed.
Lemma fd_send_ok b : build_ok b -> forall fuel s o s' o', queue_ok b (snd s) -> fd_send fuel b s o = Sent s' o' ->
  queue_ok b (snd s') /\ (exists w, wire s' = wire s ++ w) /\ wire s' ++ pending (snd s') = wire s ++ pending (snd s).
Proof.
  intros B. induction fuel as [|fuel IH]; intros s o s' o' Q E; cbn [fd_send] in E; [discriminate|]. destruct (snd s) as [|x c] eqn:Es.
  - injection E as <- <-. cbn [remove_sent snd wire]. rewrite Es. split; [exact Q|]. split; [exists []; symmetry; apply app_nil_r|reflexivity].
  - rewrite <- Es in Q. rewrite <- Es. destruct (conn_send b s o) as [| |[] s1 o1] eqn:C; try discriminate; destruct (conn_send_step b s o _ s1 o1 B Q C) as (Q1 & [w W1] & P1).
    + destruct (IH s1 o1 s' o' Q1 E) as (Q2 & [v W2] & P2). split; [exact Q2|]. split; [exists (w ++ v); now rewrite W2, W1, app_assoc|]. congruence.
    + injection E as <- <-. cbn [remove_sent snd wire]. split; [exact Q1|]. split; [exists w; exact W1|exact P1].
Qed.
Lemma send_prepare_ok s m : fits m -> send_prepare s (fst m) (Datatypes.snd m) = Some (append_chain s [Some (Mem [] (frame m) true)]).
Proof.
  intros (F1 & F2 & F3). unfold send_prepare, frame. rewrite N.mod_small by exact F2. replace (_ <? _) with false; [reflexivity|]. symmetry. apply N.ltb_ge. lia.
Qed.

(** ** Histories *)
Section History.
Variable does : call -> table -> table.
Variable b : build.
Hypothesis B : build_ok b.
Definition inv (s : system) (way : list message) : Prop :=
  queue_ok b (snd (out s)) /\ Forall in_memory (rcv (inb s)) /\ wf (rdr s) /\ blocked (rdr s) (rcv (inb s)) /\ Forall fits way /\
  pre (rdr s) ++ pending (rcv (inb s)) ++ coming (inb s) ++ pending (snd (out s)) = frames way.
Lemma inv_start t : inv (start t) [].
Proof. unfold inv, start, wf, blocked. cbn. unfold queue_ok. destruct (has_writev b); repeat split; auto; lia. Qed.
Lemma fd_receive_ok s way block o : inv s way ->
  match fd_receive does block (inb s) (rdr s) (tab s) o [] with
  | NWaits | NLost => True
  | Next i r t l => exists got way', way = got ++ way' /\ arrive does (tab s) got = (t, l) /\ inv (mkS (out s) i r t (made s ++ l)) way'
  | _ => False
  end.
Proof.
  intros (I1 & I2 & I3 & I4 & I5 & I6). unfold fd_receive. pose proof (recv_mem_ok block o (inb s)) as R. destruct (recv_mem block (inb s) o) as [|r1 i1 o1]; auto. destruct R as [(c & C1 & C2 & C3 & C4) (u & U & V)]. destruct r1; auto.
  assert (M : Forall in_memory (rcv i1)) by (rewrite C1, Forall_app; auto).
  destruct (process_ok does (S (S (held (rcv i1)))) (rdr s) (rcv i1) (tab s) way (coming i1 ++ pending (snd (out s))) I5 I3 M) as (r' & c' & t' & l & got & way' & P1 & P2 & P3 & P4 & P5 & P6 & P7).
  - rewrite <- I6, C1, pending_app, <- !app_assoc. do 2 f_equal. rewrite app_assoc, C3. reflexivity.
  - rewrite (held_pending _ M). lia.
  - rewrite P1. exists got, way'. split; [exact P2|]. split; [exact P3|]. unfold inv. cbn [out inb rdr rcv coming]. split; [exact I1|]. split; [exact P6|]. split; [exact P5|]. split; [exact P7|]. split; [|exact P4].
    rewrite P2, Forall_app in I5. apply I5.
Qed.
Lemma step_ok s x s' way t0 ops : inv s way -> (forall m, x = Say m -> fits m) -> step does b s x = Some s' -> expected does t0 ops (tab s) way (made s) ->
  exists way', inv s' way' /\ expected does t0 (ops ++ [x]) (tab s') way' (made s').
Proof.
  intros I Hf E X. destruct x as [m|o|block o|ty h a n]; cbn [step] in E.
  - specialize (Hf m eq_refl). rewrite (send_prepare_ok _ _ Hf) in E. injection E as <-. exists (way ++ [m]). split; [|now constructor].
    destruct I as (I1 & I2 & I3 & I4 & I5 & I6). unfold inv. cbn [out inb rdr append_chain snd]. split.
    + unfold queue_ok in *. destruct (has_writev b); rewrite Forall_app; split; auto; repeat constructor; cbn [unsent]; try (intros _; discriminate).
    + do 3 (split; [assumption|]). split; [rewrite Forall_app; auto|]. rewrite pending_app, frames_app, <- I6, <- !app_assoc. do 4 f_equal.
  - destruct (fd_send (S (length o)) b (out s) o) as [| | |c o'] eqn:F; try discriminate. injection E as <-. destruct I as (I1 & I2 & I3 & I4 & I5 & I6).
    destruct (fd_send_ok b B _ _ _ _ _ I1 F) as (Q & [w W] & P). exists way. split; [|now constructor]. unfold inv. cbn [out inb rdr rcv coming]. do 4 (split; [assumption|]). split; [assumption|].
    rewrite <- I6. do 2 f_equal. rewrite <- app_assoc. f_equal. rewrite W, skipn_app, skipn_all, Nat.sub_diag. cbn [app skipn]. rewrite W, <- app_assoc in P. apply app_inv_head in P. exact P.
  - pose proof (fd_receive_ok s way block o I) as R. destruct (fd_receive does block (inb s) (rdr s) (tab s) o []) as [| | | | |i r t l]; try discriminate. injection E as <-.
    destruct R as (got & way' & R1 & R2 & R3). exists way'. split; [exact R3|]. cbn [tab made]. subst way. econstructor; eauto.
  - injection E as <-. exists way. split; [exact I|]. cbn [tab made]. now constructor.
Qed.
Lemma run_ok : forall ops2 ops s way t0 s', inv s way -> (forall m, In (Say m) ops2 -> fits m) -> run does b s ops2 = Some s' -> expected does t0 ops (tab s) way (made s) ->
  exists way', inv s' way' /\ expected does t0 (ops ++ ops2) (tab s') way' (made s').
Proof.
  induction ops2 as [|x ops2 IH]; intros ops s way t0 s' I Hf E X; cbn [run] in E.
  - injection E as <-. exists way. now rewrite app_nil_r.
  - destruct (step does b s x) as [s1|] eqn:St; [|discriminate]. destruct (step_ok s x s1 way t0 ops I) as (way1 & I1 & X1); auto. { intros m ->. apply Hf. now left. }
    destruct (IH (ops ++ [x]) s1 way1 t0 s' I1) as (way2 & I2 & X2); auto. { intros m H. apply Hf. now right. } exists way2. rewrite <- app_assoc in X2. auto.
Qed.
Lemma inv_done s way : inv s way -> coming (inb s) = [] -> pending (snd (out s)) = [] -> way = [].
Proof.
  intros (I1 & I2 & I3 & I4 & I5 & I6) C P. rewrite C, P, !app_nil_r in I6. destruct way as [|m way]; [reflexivity|exfalso].
  pose proof I6 as I7. apply (f_equal (@length N)) in I7. unfold frames in I7. cbn [map concat] in I7. rewrite !app_length, frame_length in I7. unfold blocked, pre in *.
  destruct (in_length (rdr s)) eqn:L; [|cbn [length] in I7; lia]. destruct I3 as (_ & _ & W). rewrite put32_length in I7.
  unfold frames in I6. cbn [map concat] in I6. unfold frame at 1 in I6. rewrite <- app_assoc in I6. destruct (app_cut _ _ _ _ 4%nat I6 (put32_length _) ltac:(rewrite put32_length; lia)) as [K1 _].
  assert (Q : msg_len (rdr s) = 4 + N.of_nat (length (Datatypes.snd m))).
  { pose proof (Forall_inv I5) as (F1 & F2 & F3). rewrite <- (get32_put32 (msg_len (rdr s)) []) by exact W. rewrite <- (get32_put32 (4 + _) []) by exact F2. rewrite !app_nil_r. f_equal. exact K1. }
  lia.
Qed.
End History.

(** ** Without memory *)
Lemma discard_ok : forall c size, Forall in_memory c -> 0 < size -> size <= N.of_nat (length (pending c)) ->
  exists c', discard size c = (0, c') /\ pending c' = skipn (N.to_nat size) (pending c) /\ Forall in_memory c'.
Proof.
  induction c as [|x c IH]; intros len F L H.
  - exfalso. unfold pending in H. cbn [map concat length] in H. lia.
  - inversion F as [|? ? F1 F2]; subst. rewrite pending_cons, app_length in H. rewrite !pending_cons.
    destruct (in_memory_cases x F1) as [-> |(b & a & m & ->)]; cbn [discard unsent app].
    + cbn [unsent length] in H. apply IH; auto.
    + cbn [unsent] in H. destruct (len <? N.of_nat (length a)) eqn:E.
      * apply N.ltb_lt in E. eexists. split; [reflexivity|]. split; [|constructor; auto]. rewrite pending_cons, skipn_app. cbn [unsent]. now replace (N.to_nat len - length a)%nat with 0%nat by lia.
      * apply N.ltb_ge in E. destruct (len - N.of_nat (length a) =? 0) eqn:Z.
        -- apply N.eqb_eq in Z. exists c. assert (N.to_nat len = length a) as -> by lia. rewrite skipn_app, Nat.sub_diag, skipn_all. cbn [skipn app]. auto.
        -- apply N.eqb_neq in Z. destruct (IH (len - N.of_nat (length a)) F2 ltac:(lia) ltac:(lia)) as (c' & T & P & M). rewrite T. exists c'. split; [reflexivity|].
           split; [|exact M]. rewrite P, skipn_app, (skipn_all2 a) by lia. cbn [app]. replace (N.to_nat (len - N.of_nat (length a))) with (N.to_nat len - length a)%nat by lia. reflexivity.
Qed.
Lemma no_memory_ok does c t m ms : Forall in_memory c -> Forall fits (m :: ms) -> pending c = frames (m :: ms) ->
  exists r' c' t' l, process does (S (S (held c))) reader_new c t [false] = Rests r' c' t' l /\ arrive does t ms = (t', l) /\ pending c' = [] /\ in_length r' = false /\ wf r'.
Proof.
  intros M F E. remember (S (held c)) as fuel eqn:Ef. cbn [process reader_new error_bytes in_length msg_len content N.eqb negb]. pose proof (Forall_inv F) as (F1 & F2 & F3).
  pose proof (get_buf_ok c 4 M ltac:(lia)) as G. assert (L : (8 + length (Datatypes.snd m) <= length (pending c))%nat). { rewrite E. unfold frames. cbn [map concat]. rewrite app_length, frame_length. lia. }
  destruct (get_buf c 4) as [[d c1]|]; [|lia]. destruct G as (G1 & G2 & G3 & G4). change (N.to_nat 4) with 4%nat in G2, G3.
  unfold frames in E. cbn [map concat] in E. unfold frame at 1 in E. fold (frames ms) in E. rewrite <- app_assoc in E. rewrite E in G2, G3.
  change (firstn 4 (put32 (4 + N.of_nat (length (Datatypes.snd m))) ++ (put32 (fst m) ++ Datatypes.snd m) ++ frames ms)) with (put32 (4 + N.of_nat (length (Datatypes.snd m)))) in G2.
  change (skipn 4 (put32 (4 + N.of_nat (length (Datatypes.snd m))) ++ (put32 (fst m) ++ Datatypes.snd m) ++ frames ms)) with ((put32 (fst m) ++ Datatypes.snd m) ++ frames ms) in G3.
  assert (Q : get32 d = 4 + N.of_nat (length (Datatypes.snd m))) by (rewrite G2, <- (app_nil_r (put32 _)); now apply get32_put32). rewrite Q.
  set (n := 4 + N.of_nat (length (Datatypes.snd m))) in *.
  destruct (discard_ok c1 n G4) as (c2 & D1 & D2 & D3). { unfold n. lia. } { rewrite G3, !app_length, put32_length. unfold n. lia. }
  assert (X : process does fuel (mkR false n false n) c1 t [] = process does fuel (mkR false n false 0) c2 t []).
  { subst fuel. cbn [process error_bytes in_length msg_len content N.eqb negb]. replace (n =? 0) with false by (symmetry; apply N.eqb_neq; unfold n; lia). rewrite D1. reflexivity. }
  rewrite X. assert (P : pending c2 = frames ms).
  { rewrite D2, G3, skipn_app, skipn_all2 by (rewrite app_length, put32_length; unfold n; lia). rewrite app_length, put32_length. replace (N.to_nat n - (4 + length (Datatypes.snd m)))%nat with 0%nat by (unfold n; lia). reflexivity. }
  assert (Wn : wf (mkR false n false 0)) by (unfold wf; cbn; auto).
  destruct (process_ok does fuel (mkR false n false 0) c2 t ms [] (Forall_inv_tail F) Wn D3) as (r' & c' & t' & l & got & way & P1 & P2 & P3 & P4 & P5 & P6 & P7).
  { unfold pre. cbn [in_length app]. now rewrite app_nil_r. }
  { rewrite P, Ef, (held_pending c M), E, !app_length, put32_length. lia. }
  exists r', c', t', l. rewrite P1. split; [reflexivity|].
  assert (way = []) as ->.
  { apply (inv_done does (mkB false false false) (mkS conn_new (mkI [] c') r' t' []) way); [|reflexivity|reflexivity]. unfold inv. cbn [out inb rdr rcv coming conn_new snd]. unfold queue_ok. cbn [has_writev].
    split; [constructor|]. split; [exact P6|]. split; [exact P5|]. split; [exact P7|]. split; [|exact P4]. pose proof (Forall_inv_tail F) as F5. rewrite P2, Forall_app in F5. apply F5. }
  rewrite app_nil_r in P2. subst got. split; [exact P3|]. cbn [frames map concat] in P4. rewrite app_nil_r in P4. destruct (app_eq_nil _ _ P4) as [A1 A2]. split; [exact A2|]. split; [|exact P5].
  unfold pre in A1. destruct (in_length r'); [discriminate|reflexivity].
Qed.

(** ** When the other process has ended *)
Lemma recv_closed : forall o i, ~ In Again o -> match recv_mem false i o with RReturns NOTYET _ _ => False | _ => True end.
Proof.
  induction o as [|a o IH]; intros i N1; cbn [recv_mem]; [exact I|]. assert (N2 : ~ In Again o) by (intros H; apply N1; now right).
  destruct (recv1 i a) eqn:R; [apply IH; exact N2|exact I|apply IH; exact N2| |exact I]. destruct a; cbn [recv1] in R; [|discriminate| |discriminate].
  - destruct (taken _ _); discriminate.
  - apply N1. now left.
Qed.

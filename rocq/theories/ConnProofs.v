Require Import List Arith NArith Lia Bool.
Require Import ZifyBool ZifyNat ZifyN.
Require Import Verif.Base Verif.ConnModel Verif.ConnSpec.
Import ListNotations.

Lemma pending_app a b : pending (a ++ b) = pending a ++ pending b.
Proof. unfold pending. now rewrite map_app, concat_app. Qed.
Lemma pending_cons x c : pending (x :: c) = unsent x ++ pending c.
Proof. reflexivity. Qed.
Definition quiet (c : chain) : Prop := Forall (fun y => ~ marked y) c.

(** ** Bytes taken by writev and send *)
Definition moved (c p q : chain) (w : list N) : Prop :=
  map whole c = map whole (p ++ q) /\ pending p = [] /\ w ++ pending q = pending c /\
  (Forall sound c -> Forall sound q) /\ (Forall lively c -> Forall lively q) /\ (Forall in_memory c -> Forall in_memory q).
Lemma moved_none c p q w : moved c p q w -> moved (None :: c) (None :: p) q w.
Proof.
  intros (A & B & C & D & E & F). split; [cbn; now rewrite A|]. split; [exact B|]. split; [exact C|].
  split; [intros H; inversion H; auto|]. split; [intros H; inversion H; auto|intros H; inversion H; auto].
Qed.
Lemma moved_full b a m c p q w : moved c p q w -> moved (Some (Mem b a m) :: c) (Some (Mem (b ++ a) [] m) :: p) q (a ++ w).
Proof.
  intros (A & B & C & D & E & F). split; [cbn; now rewrite A, app_nil_r|]. split; [exact B|]. split; [rewrite <- app_assoc, C; reflexivity|].
  split; [intros H; inversion H; auto|]. split; [intros H; inversion H; auto|intros H; inversion H; auto].
Qed.
Lemma moved_nil c : moved c [] c [].
Proof. repeat split; auto. Qed.
Lemma moved_part b a m c n : n < length a -> moved (Some (Mem b a m) :: c) [] (Some (Mem (b ++ firstn n a) (skipn n a) m) :: c) (firstn n a).
Proof.
  intros L. split; [cbn; now rewrite <- app_assoc, firstn_skipn|]. split; [reflexivity|]. split.
  - rewrite !pending_cons. cbn [unsent]. now rewrite app_assoc, firstn_skipn.
  - split; [intros H; inversion H; constructor; auto|]. split; intros H; inversion H as [|? ? H1 H2]; subst; constructor; auto.
    cbn [lively some_left] in *. rewrite skipn_length. lia.
Qed.

Lemma consume_ok : forall c room n, 1 <= n <= length (concat (gather room c)) ->
  match consume c n with
  | (p, q, d) => moved c p q (firstn n (concat (gather room c))) /\
      if d then verdict FINISH p \/ (quiet p /\ exists x r, q = x :: r /\ marked x /\ unsent x <> []) else quiet p
  end.
Proof.
  induction c as [|x c IH]; intros room n H; [cbn in H; lia|]. destruct room as [|room]; [cbn in H; lia|].
  destruct x as [[b a m|d ps l m]|]; cbn [gather consume] in *.
  - destruct (Nat.leb_spec (length a) n) as [L|L].
    + destruct a as [|y a].
      * destruct m; [cbn in H; lia|]. cbn [orb length] in *. rewrite Nat.sub_0_r. destruct (Nat.eqb_spec n 0); [lia|].
        specialize (IH (S room) n H). destruct (consume c n) as [[p q] d]. destruct IH as [M V]. split; [exact (moved_full b [] false _ _ _ _ M)|].
        destruct d; [|constructor; [discriminate|auto]]. destruct V as [(p' & x & -> & X & Q)|(Q & V)]; [left; exists (Some (Mem (b ++ []) [] false) :: p'), x; split; [reflexivity|]; split; [exact X|constructor; [discriminate|auto]]|].
        right. split; [constructor; [discriminate|auto]|exact V].
      * set (aa := y :: a) in *. cbn [concat] in *. destruct m; cbn [orb].
        -- cbn [concat] in *. rewrite app_nil_r in *. assert (n = length aa) by lia. subst n. rewrite firstn_all. split.
           ++ pose proof (moved_full b aa true c [] c [] (moved_nil c)) as M. rewrite app_nil_r in M. exact M.
           ++ left. exists [], (Some (Mem (b ++ aa) [] true)). repeat split. constructor.
        -- destruct (Nat.eqb_spec (n - length aa) 0) as [Z|Z].
           ++ assert (n = length aa) by lia. subst n. split; [|constructor; [discriminate|constructor]].
              pose proof (moved_full b aa false c [] c [] (moved_nil c)) as M. rewrite firstn_app, firstn_all, Nat.sub_diag. exact M.
           ++ rewrite app_length in H. specialize (IH room (n - length aa) ltac:(lia)). destruct (consume c (n - length aa)) as [[p q] d]. destruct IH as [M V]. split.
              ** rewrite firstn_app, (firstn_all2 aa) by lia. exact (moved_full b aa false _ _ _ _ M).
              ** destruct d; [|constructor; [discriminate|auto]]. destruct V as [(p' & x & -> & X & Q)|(Q & V)]; [left; exists (Some (Mem (b ++ aa) [] false) :: p'), x; split; [reflexivity|]; split; [exact X|constructor; [discriminate|auto]]|].
                 right. split; [constructor; [discriminate|auto]|exact V].
    + destruct a as [|y a]; [cbn in L; lia|]. set (aa := y :: a) in *. cbn [concat]. split.
      * rewrite firstn_app, (proj2 (Nat.sub_0_le n (length aa))) by lia. rewrite firstn_O, app_nil_r. now apply moved_part.
      * destruct m; [|constructor]. right. split; [constructor|]. eexists _, _. split; [reflexivity|]. split; [reflexivity|]. cbn [unsent]. intros E.
        assert (X : length (skipn n aa) = 0) by now rewrite E. rewrite skipn_length in X. lia.
  - cbn in H. lia.
  - specialize (IH (S room) n H). destruct (consume c n) as [[p q] d]. destruct IH as [M V]. split; [now apply moved_none|].
    destruct d; [|constructor; auto]. destruct V as [(p' & x & -> & X & Q)|(Q & V)]; [left; exists (None :: p'), x; split; [reflexivity|]; split; [exact X|constructor; auto]|].
    right. split; [constructor; auto|exact V].
Qed.
Lemma consume2_ok : forall c room n, 1 <= n <= length (collect room c) ->
  match consume2 c n with
  | Some (p, q, d) => moved c p q (firstn n (collect room c)) /\ verdict (if d then FINISH else NOTYET) p
  | None => False
  end.
Proof.
  induction c as [|x c IH]; intros room n H; [cbn in H; lia|].
  destruct x as [[b a m|d ps l m]|]; cbn [collect consume2] in *.
  - destruct (Nat.ltb_spec n (length a)) as [L|L].
    + destruct (Nat.ltb_spec room (length a)) as [R|R].
      * rewrite firstn_length in H. rewrite firstn_firstn, Nat.min_l by lia. split; [now apply moved_part|constructor].
      * rewrite firstn_app, (proj2 (Nat.sub_0_le n (length a))) by lia. rewrite firstn_O, app_nil_r. split; [now apply moved_part|constructor].
    + destruct (Nat.ltb_spec room (length a)) as [R|R]; [rewrite firstn_length in H; lia|]. rewrite app_length in H. destruct m; cbn [orb].
      * rewrite app_nil_r. cbn [length] in H. assert (n = length a) by lia. subst n. rewrite firstn_all. split.
        -- pose proof (moved_full b a true c [] c [] (moved_nil c)) as M. rewrite app_nil_r in M. exact M.
        -- exists [], (Some (Mem (b ++ a) [] true)). repeat split. constructor.
      * destruct (Nat.eqb_spec (n - length a) 0) as [Z|Z].
        -- assert (n = length a) by lia. subst n. split; [|constructor; [discriminate|constructor]].
           pose proof (moved_full b a false c [] c [] (moved_nil c)) as M. rewrite firstn_app, firstn_all, Nat.sub_diag. exact M.
        -- specialize (IH (room - length a) (n - length a) ltac:(lia)). destruct (consume2 c (n - length a)) as [[[p q] d]|]; [|exact IH]. cbn [obind]. destruct IH as [M V]. split.
           ++ rewrite firstn_app, (firstn_all2 a) by lia. exact (moved_full b a false _ _ _ _ M).
           ++ destruct d; [|constructor; [discriminate|exact V]]. destruct V as (p' & x & -> & X & Q). exists (Some (Mem (b ++ a) [] false) :: p'), x.
              split; [reflexivity|]; split; [exact X|constructor; [discriminate|auto]].
  - cbn in H. lia.
  - specialize (IH room n H). destruct (consume2 c n) as [[[p q] d]|]; [|exact IH]. cbn [obind]. destruct IH as [M V]. split; [now apply moved_none|].
    destruct d; [|constructor; auto]. destruct V as (p' & x & -> & X & Q). exists (None :: p'), x. split; [reflexivity|]; split; [exact X|constructor; auto].
Qed.

(** ** Steps *)
Definition keeps (c c' : chain) : Prop :=
  (Forall sound c -> Forall sound c') /\ (Forall lively c -> Forall lively c') /\ (Forall in_memory c -> Forall in_memory c').
Lemma keeps_refl c : keeps c c. Proof. repeat split; auto. Qed.
Lemma keeps_trans a b c : keeps a b -> keeps b c -> keeps a c.
Proof. intros (A & B & C) (D & E & F). repeat split; auto. Qed.
Lemma goes_refl s : goes s s [] [].
Proof. unfold goes. rewrite app_nil_r. repeat split. Qed.
Lemma goes_advance s p q w : moved (snd s) p q w -> goes s (advance s p q w) p [] /\ keeps (snd s) q.
Proof.
  intros (A & B & C & D & E & F). split; [|repeat split; auto]. unfold goes, advance. cbn [snd sent wire]. split; [reflexivity|]. split; [exact A|]. split; [exact B|]. split; [reflexivity|].
  rewrite <- app_assoc, C. reflexivity.
Qed.
Lemma goes_trans s s1 s2 p1 p2 g : goes s s1 p1 [] -> goes s1 s2 p2 g -> goes s s2 (p1 ++ p2) g.
Proof.
  intros (A1 & B1 & C1 & _ & E1) (A2 & B2 & C2 & D2 & E2). split; [rewrite A2, A1, app_assoc; reflexivity|]. split.
  - rewrite B1. cbn [app]. rewrite map_app, B2, <- app_assoc, (map_app whole p1). reflexivity.
  - split; [rewrite pending_app, C1, C2; reflexivity|]. split; [exact D2|]. rewrite E2, E1. reflexivity.
Qed.
Lemma verdict_after r p1 p2 : quiet p1 -> verdict r p2 -> verdict r (p1 ++ p2).
Proof.
  intros Q V. destruct r; cbn [verdict] in *; [|apply Forall_app; auto|apply Forall_app; auto|exact V].
  destruct V as (p' & x & -> & X & Q'). exists (p1 ++ p'), x. split; [apply app_assoc|]. split; [exact X|]. apply Forall_app. auto.
Qed.
Lemma taken_ok k l : 1 <= l -> 1 <= taken k l <= l.
Proof. unfold taken. lia. Qed.

Definition good (s : conn) (r : ret) (s' : conn) (o o' : list ans) (stop : Prop) : Prop :=
  exists p u, goes s s' p [] /\ keeps (snd s) (snd s') /\ verdict (code_of r) p /\ used o o' u /\ (r = Zero -> In Again u \/ stop).
Lemma good_first s s1 r s2 p u o o' o2 stop : goes s s1 p [] -> keeps (snd s) (snd s1) -> quiet p -> used o o' u -> good s1 r s2 o' o2 stop -> good s r s2 o o2 stop.
Proof.
  intros G K Q U (p2 & u2 & G2 & K2 & V2 & U2 & Z2). exists (p ++ p2), (u ++ u2). split; [eapply goes_trans; eauto|]. split; [eapply keeps_trans; eauto|].
  split; [now apply verdict_after|]. split; [unfold used in *; rewrite U, U2, app_assoc; reflexivity|]. intros E. destruct (Z2 E) as [I|I]; [left; apply in_or_app; auto|auto].
Qed.
Lemma good_here s r o a o' stop : r <> Pos -> o = a :: o' -> (r = Zero -> a = Again \/ stop) -> good s r s o o' stop.
Proof.
  intros N1 E Z. exists [], [a]. split; [apply goes_refl|]. split; [apply keeps_refl|]. split; [destruct r; [constructor|constructor|congruence]|]. split; [exact E|].
  intros X. destruct (Z X) as [->|]; [left; left; reflexivity|auto].
Qed.
Lemma good_done s r o (stop : Prop) : r <> Pos -> (r = Zero -> stop) -> good s r s o o stop.
Proof. intros N1 Z. exists [], []. split; [apply goes_refl|]. split; [apply keeps_refl|]. split; [destruct r; [constructor|constructor|congruence]|]. split; [reflexivity|auto]. Qed.

Lemma send_nb_ok : forall o s, match send_nb o s with Wait => True | Bad => False | Ret r s' o' => good s r s' o o' (collect page (snd s') = []) end.
Proof.
  induction o as [|a o IH]; intros s; cbn [send_nb].
  - destruct (collect page (snd s)) eqn:E; [apply good_done; auto; discriminate|exact I].
  - destruct (collect page (snd s)) as [|y v] eqn:E; [apply good_done; auto; discriminate|]. destruct a as [k| | |].
    + set (vv := y :: v) in *. pose proof (taken_ok k (length vv) ltac:(cbn [length vv]; lia)) as T.
      pose proof (consume2_ok (snd s) page (taken k (length vv)) ltac:(rewrite E; exact T)) as C. destruct (consume2 (snd s) (taken k (length vv))) as [[[p q] d]|]; [|exact C].
      destruct C as [M V]. rewrite E in M. destruct (goes_advance s p q _ M) as [G K]. destruct d.
      * exists p, [Ok k]. split; [exact G|]. split; [exact K|]. split; [exact V|]. split; [reflexivity|discriminate].
      * specialize (IH (advance s p q (firstn (taken k (length vv)) vv))). destruct (send_nb o _); auto. apply (good_first s _ _ _ p [Ok k] _ o _ _ G K V eq_refl IH).
    + specialize (IH s). destruct (send_nb o s); auto. eapply (good_first s s _ _ [] [Intr]); eauto; [apply goes_refl|apply keeps_refl|constructor|reflexivity].
    + apply (good_here s _ _ Again); [discriminate|reflexivity|auto].
    + apply (good_here s _ _ Fail); [discriminate|reflexivity|discriminate].
Qed.
Lemma send_bl_ok : forall o s, match send_bl o s with Wait => True | Bad => False | Ret r s' o' => good s r s' o o' True end.
Proof.
  induction o as [|a o IH]; intros s; cbn [send_bl].
  - destruct (collect page (snd s)) eqn:E; [apply good_done; auto; discriminate|exact I].
  - destruct (collect page (snd s)) as [|y v] eqn:E; [apply good_done; auto; discriminate|]. destruct a as [k| | |].
    + set (vv := y :: v) in *. pose proof (taken_ok k (length vv) ltac:(cbn [length vv]; lia)) as T.
      pose proof (consume2_ok (snd s) page (taken k (length vv)) ltac:(rewrite E; exact T)) as C. destruct (consume2 (snd s) (taken k (length vv))) as [[[p q] d]|]; [|exact C].
      destruct C as [M V]. rewrite E in M. destruct (goes_advance s p q _ M) as [G K].
      exists p, [Ok k]. split; [exact G|]. split; [exact K|]. split; [destruct d; exact V|]. split; [reflexivity|auto].
    + specialize (IH s). destruct (send_bl o s); auto. eapply (good_first s s _ _ [] [Intr]); eauto; [apply goes_refl|apply keeps_refl|constructor|reflexivity].
    + apply (good_here s _ _ Again); [discriminate|reflexivity|discriminate].
    + apply (good_here s _ _ Fail); [discriminate|reflexivity|discriminate].
Qed.

(** ** Files *)
Lemma part_split (d : list N) pos p l : pos <= p <= l -> firstn (p - pos) (skipn pos d) ++ firstn (l - p) (skipn p d) = firstn (l - pos) (skipn pos d).
Proof.
  intros H. replace (skipn p d) with (skipn (p - pos) (skipn pos d)).
  - replace (l - pos) with ((p - pos) + (l - p)) by lia. generalize (skipn pos d), (p - pos), (l - p). intros l0 n. revert l0. induction n as [|n IH]; intros l0 k; [reflexivity|].
    destruct l0; [cbn [skipn]; now rewrite !firstn_nil|]. cbn [firstn skipn app plus]. now rewrite IH.
  - replace p with (pos + (p - pos)) at 2 by lia. generalize (p - pos). intros k. clear H. revert d. induction pos as [|n IH]; intros d; [reflexivity|]. destruct d; [now rewrite !skipn_nil|]. apply IH.
Qed.
Definition push_ok (d : list N) (pos last : nat) (o : list ans) (x : push) (stop : Prop) : Prop :=
  match x with
  | PWait => True
  | PDone p w o' => p = last /\ w = firstn (last - pos) (skipn pos d) /\ exists u, used o o' u
  | PRet r p w o' => pos <= p < last /\ w = firstn (p - pos) (skipn pos d) /\ r <> Pos /\ exists u, used o o' u /\ (r = Zero -> In Again u \/ stop)
  end.
Lemma push_more d pos p last o o' u x stop : pos <= p < last -> used o o' u -> push_ok d p last o' x stop -> push_ok d pos last o (before_push (firstn (p - pos) (skipn pos d)) x) stop.
Proof.
  intros H U X. destruct x as [|q w o2|r q w o2]; cbn [before_push push_ok] in *; [exact I| |].
  - destruct X as (-> & -> & u2 & U2). split; [reflexivity|]. split; [apply part_split; lia|]. exists (u ++ u2). unfold used in *. now rewrite U, U2, app_assoc.
  - destruct X as (H1 & -> & R & u2 & U2 & Z). split; [lia|]. split; [apply part_split; lia|]. split; [exact R|]. exists (u ++ u2). split; [unfold used in *; now rewrite U, U2, app_assoc|].
    intros E. destruct (Z E) as [I1|I1]; [left; apply in_or_app; auto|auto].
Qed.
Lemma push_same d pos last a o x stop : push_ok d pos last o x stop -> push_ok d pos last (a :: o) x stop.
Proof.
  destruct x as [|q w o2|r q w o2]; cbn [push_ok]; [auto| |].
  - intros (A & B & u & U). split; [exact A|]. split; [exact B|]. exists (a :: u). unfold used in *. now rewrite U.
  - intros (A & B & R & u & U & Z). split; [exact A|]. split; [exact B|]. split; [exact R|]. exists (a :: u). split; [unfold used in *; now rewrite U|]. intros E. destruct (Z E); [left; right; assumption|auto].
Qed.
Lemma push_here d pos last a o r (stop : Prop) : pos < last -> r <> Pos -> (r = Zero -> a = Again \/ stop) -> push_ok d pos last (a :: o) (PRet r pos [] o) stop.
Proof.
  intros H R Z. cbn [push_ok]. split; [lia|]. split; [rewrite Nat.sub_diag; reflexivity|]. split; [exact R|]. exists [a]. split; [reflexivity|]. intros E. destruct (Z E) as [->|]; [left; left; reflexivity|auto].
Qed.
Lemma sendfile_ok d last fixed : last <= length d -> forall o pos, pos < last -> push_ok d pos last o (sendfile true fixed d pos last o) False.
Proof.
  intros L. induction o as [|a o IH]; intros pos P; [exact I|]. destruct a as [k| | |]; cbn [sendfile].
  - rewrite (proj2 (Nat.leb_le pos last)) by lia. rewrite Nat.min_l by lia. pose proof (taken_ok k (last - pos) ltac:(lia)) as T. destruct (Nat.eqb_spec (taken k (last - pos)) 0); [lia|].
    set (n0 := taken k (last - pos)) in *. destruct (Nat.eqb_spec (pos + n0) last) as [E|E].
    + cbn [push_ok]. split; [exact E|]. split; [f_equal; lia|]. exists [Ok k]. reflexivity.
    + pose proof (push_more d pos (pos + n0) last (Ok k :: o) o [Ok k] _ False ltac:(lia) eq_refl (IH (pos + n0) ltac:(lia))) as X. replace (pos + n0 - pos) with n0 in X by lia. exact X.
  - apply push_same, IH, P.
  - apply push_here; [exact P|discriminate|discriminate].
  - apply push_here; [exact P|discriminate|discriminate].
Qed.
Lemma readsend_ok block d last : last <= length d -> forall o pos got, pos < last -> match got with Some n => 1 <= n <= last - pos | None => True end ->
  push_ok d pos last o (readsend block d pos last got o) (block = true).
Proof.
  intros L. induction o as [|a o IH]; intros pos got P G; [exact I|]. destruct a as [k| | |]; cbn [readsend].
  - destruct got as [l|].
    + pose proof (taken_ok k l ltac:(lia)) as T. set (n0 := taken k l) in *. destruct (Nat.eqb_spec (pos + n0) last) as [E|E].
      * cbn [push_ok]. split; [exact E|]. split; [f_equal; lia|]. exists [Ok k]. reflexivity.
      * destruct block.
        -- cbn [push_ok]. split; [lia|]. split; [f_equal; lia|]. split; [discriminate|]. exists [Ok k]. split; [reflexivity|auto].
        -- pose proof (push_more d pos (pos + n0) last (Ok k :: o) o [Ok k] _ (false = true) ltac:(lia) eq_refl (IH (pos + n0) None ltac:(lia) I)) as X.
           replace (pos + n0 - pos) with n0 in X by lia. exact X.
    + rewrite (proj2 (Nat.leb_le pos last)) by lia. set (asked := Nat.min (last - pos) _). assert (A : 1 <= asked <= last - pos) by (unfold asked; lia).
      rewrite Nat.min_l by lia. pose proof (taken_ok k asked ltac:(lia)) as T. destruct (Nat.eqb_spec (taken k asked) 0); [lia|]. apply push_same, IH; [exact P|lia].
  - apply push_same, IH; assumption.
  - destruct got; apply push_here; auto; destruct block; try discriminate; auto.
  - destruct got; apply push_here; auto; discriminate.
Qed.
Lemma pop_head x x' r t w w' : whole x = whole x' -> unsent x' = [] -> w' = unsent x ->
  goes (mkC (x :: r) t w) (mkC r (t ++ [x']) (w ++ w')) [x'] [] /\ keeps (x :: r) r.
Proof.
  intros W U ->. split.
  - split; [reflexivity|]. split; [cbn; now rewrite W|]. split; [unfold pending; cbn; now rewrite U|]. split; [reflexivity|]. cbn [wire snd]. rewrite <- app_assoc. reflexivity.
  - repeat split; intros H; inversion H; auto.
Qed.
Lemma part_head x x' r t w w' : whole x = whole x' -> w' ++ unsent x' = unsent x -> (sound x -> sound x') -> (lively x -> lively x') -> (in_memory x -> in_memory x') ->
  goes (mkC (x :: r) t w) (mkC (x' :: r) t (w ++ w')) [] [] /\ keeps (x :: r) (x' :: r).
Proof.
  intros W U A B C. split.
  - split; [cbn; now rewrite app_nil_r|]. split; [cbn; now rewrite W|]. split; [reflexivity|]. split; [reflexivity|]. cbn [wire snd]. rewrite !pending_cons, <- U, !app_assoc. reflexivity.
  - repeat split; intros H; inversion H; constructor; auto.
Qed.
Lemma good_step s s1 r s2 p u o o' o2 (stop : Prop) : goes s s1 p [] -> keeps (snd s) (snd s1) -> quiet p -> used o o' u -> good s1 r s2 o' o2 stop -> good s r s2 o o2 stop.
Proof. intros. eapply good_first; eauto. Qed.
Lemma good_end s s' r p u o o' (stop : Prop) : goes s s' p [] -> keeps (snd s) (snd s') -> verdict (code_of r) p -> used o o' u -> (r = Zero -> In Again u \/ stop) -> good s r s' o o' stop.
Proof. intros. exists p, u. auto. Qed.
Lemma none_head c t w : goes (mkC (None :: c) t w) (mkC c (t ++ [None]) w) [None] [] /\ keeps (None :: c) c.
Proof. pose proof (pop_head None None c t w [] eq_refl eq_refl eq_refl) as X. rewrite app_nil_r in X. exact X. Qed.
Lemma quiet1 (x : option buf) : ~ marked x -> quiet [x].
Proof. intros H. constructor; [exact H|constructor]. Qed.
Lemma finish1 x : marked x -> verdict FINISH [x].
Proof. intros H. exists [], x. split; [reflexivity|]. split; [exact H|constructor]. Qed.
(** A buffer in a file went out, or a part of it did. *)
Lemma file_done d pos last m r t w : pos <= last ->
  let x' := Some (File d last last m) in
  goes (mkC (Some (File d pos last m) :: r) t w) (mkC r (t ++ [x']) (w ++ firstn (last - pos) (skipn pos d))) [x'] [] /\ keeps (Some (File d pos last m) :: r) r.
Proof. intros H x'. apply pop_head; [reflexivity| |reflexivity]. cbn [unsent x']. now rewrite Nat.sub_diag. Qed.
Lemma file_part d pos p last m r t w : pos <= p < last ->
  goes (mkC (Some (File d pos last m) :: r) t w) (mkC (Some (File d p last m) :: r) t (w ++ firstn (p - pos) (skipn pos d))) [] [] /\
  keeps (Some (File d pos last m) :: r) (Some (File d p last m) :: r).
Proof.
  intros H. apply part_head; [reflexivity| | | |].
  - cbn [unsent]. apply part_split. lia.
  - cbn [sound]. lia.
  - cbn [lively some_left]. lia.
  - auto.
Qed.

Lemma file_bl_ok : forall c t w o, Forall sound c -> match file_bl c t w o with Wait => True | Bad => False | Ret r s' o' => good (mkC c t w) r s' o o' True end.
Proof.
  induction c as [|x c IH]; intros t w o S1; cbn [file_bl]; [apply good_done; auto; discriminate|]. inversion S1 as [|? ? S2 S3]; subst. destruct x as [b|].
  - destruct (some_left b) eqn:L.
    + destruct b as [b a m|d pos last m]; [apply good_done; auto; discriminate|]. cbn [sound some_left] in *.
      pose proof (sendfile_ok d last 0 ltac:(lia) o pos ltac:(lia)) as P. destruct (sendfile true 0 d pos last o) as [|p w' o'|r p w' o']; cbn [push_ok] in P; [exact I| |].
      * destruct P as (-> & -> & u & U). destruct (file_done d pos last m c t w ltac:(lia)) as [G K].
        apply (good_end _ _ _ _ u _ _ _ G K); [destruct m; [apply finish1; reflexivity|apply quiet1; discriminate]|exact U|auto].
      * destruct P as (P1 & -> & R & u & U & Z). destruct (file_part d pos p last m c t w P1) as [G K].
        apply (good_end _ _ _ _ u _ _ _ G K); [destruct r; [constructor|constructor|congruence]|exact U|]. intros E. destruct (Z E); [auto|contradiction].
    + assert (E : whole (Some b) = whole (Some b)) by reflexivity. assert (U : unsent (Some b) = []).
      { destruct b as [b a m|d pos last m]; cbn [unsent some_left] in *; [destruct a; [reflexivity|discriminate]|]. replace (last - pos) with 0 by lia. reflexivity. }
      destruct (pop_head (Some b) (Some b) c t w [] E U (eq_sym U)) as [G K]. rewrite app_nil_r in G. destruct (mark b) eqn:Mk.
      * apply (good_end _ _ Pos _ [] _ _ _ G K); [apply finish1; exact Mk|reflexivity|discriminate].
      * specialize (IH (t ++ [Some b]) w o S3). destruct (file_bl c _ w o); auto. apply (good_step _ _ _ _ _ [] _ o _ _ G K); [|reflexivity|exact IH]. apply quiet1. cbn. congruence.
  - destruct (none_head c t w) as [G K]. specialize (IH (t ++ [None]) w o S3). destruct (file_bl c _ w o); auto. apply (good_step _ _ _ _ _ [] _ o _ _ G K); [|reflexivity|exact IH]. apply quiet1. auto.
Qed.
Lemma file2_nb_ok : forall c t w o, Forall sound c -> match file2_nb c t w o with Wait => True | Bad => False | Ret r s' o' => good (mkC c t w) r s' o o' (snd s' = [] \/ head_in_memory s' = true) end.
Proof.
  induction c as [|x c IH]; intros t w o S1; cbn [file2_nb]; [apply good_done; auto; discriminate|]. inversion S1 as [|? ? S2 S3]; subst. destruct x as [[b a m|d pos last m]|].
  - apply good_done; auto. discriminate.
  - cbn [sound] in S2.
    assert (X : push_ok d pos last o (if Nat.eqb pos last then PDone pos [] o else readsend false d pos last None o) (false = true)).
    { destruct (Nat.eqb_spec pos last) as [->|Ne]; [|apply readsend_ok; [lia|lia|exact I]]. cbn [push_ok]. rewrite Nat.sub_diag. split; [reflexivity|]. split; [reflexivity|]. exists []. reflexivity. }
    destruct (if Nat.eqb pos last then _ else _) as [|p w' o'|r p w' o']; cbn [push_ok] in X; [exact I| |].
    + destruct X as (-> & -> & u & U). destruct (file_done d pos last m c t w ltac:(lia)) as [G K]. destruct m.
      * apply (good_end _ _ Pos _ u _ _ _ G K); [apply finish1; reflexivity|exact U|discriminate].
      * specialize (IH (t ++ [Some (File d last last false)]) (w ++ firstn (last - pos) (skipn pos d)) o' S3). destruct (file2_nb c _ _ o'); auto.
        apply (good_step _ _ _ _ _ u _ o' _ _ G K); [apply quiet1; discriminate|exact U|exact IH].
    + destruct X as (P1 & -> & R & u & U & Z). destruct (file_part d pos p last m c t w P1) as [G K].
      apply (good_end _ _ _ _ u _ _ _ G K); [destruct r; [constructor|constructor|congruence]|exact U|]. intros E. destruct (Z E); [auto|discriminate].
  - destruct (none_head c t w) as [G K]. specialize (IH (t ++ [None]) w o S3). destruct (file2_nb c _ w o); auto. apply (good_step _ _ _ _ _ [] _ o _ _ G K); [|reflexivity|exact IH]. apply quiet1. auto.
Qed.
Lemma file2_bl_ok : forall c t w o, Forall sound c -> match file2_bl c t w o with Wait => True | Bad => False | Ret r s' o' => good (mkC c t w) r s' o o' True end.
Proof.
  induction c as [|x c IH]; intros t w o S1; cbn [file2_bl]; [apply good_done; auto; discriminate|]. inversion S1 as [|? ? S2 S3]; subst. destruct x as [[b a m|d pos last m]|].
  - apply good_done; auto. discriminate.
  - cbn [sound] in S2. destruct (Nat.eqb_spec pos last) as [->|Ne].
    + destruct (file_done d last last m c t w ltac:(lia)) as [G K]. rewrite Nat.sub_diag, firstn_O, app_nil_r in G. destruct m.
      * apply (good_end _ _ Pos _ [] _ _ _ G K); [apply finish1; reflexivity|reflexivity|discriminate].
      * specialize (IH (t ++ [Some (File d last last false)]) w o S3). destruct (file2_bl c _ _ o); auto.
        apply (good_step _ _ _ _ _ [] _ o _ _ G K); [apply quiet1; discriminate|reflexivity|exact IH].
    + pose proof (readsend_ok true d last ltac:(lia) o pos None ltac:(lia) I) as P. destruct (readsend true d pos last None o) as [|p w' o'|r p w' o']; cbn [push_ok] in P; [exact I| |].
      * destruct P as (-> & -> & u & U). destruct (file_done d pos last m c t w ltac:(lia)) as [G K].
        apply (good_end _ _ _ _ u _ _ _ G K); [destruct m; [apply finish1; reflexivity|apply quiet1; discriminate]|exact U|auto].
      * destruct P as (P1 & -> & R & u & U & Z). destruct (file_part d pos p last m c t w P1) as [G K].
        apply (good_end _ _ _ _ u _ _ _ G K); [destruct r; [constructor|constructor|congruence]|exact U|auto].
  - destruct (none_head c t w) as [G K]. specialize (IH (t ++ [None]) w o S3). destruct (file2_bl c _ w o); auto. apply (good_step _ _ _ _ _ [] _ o _ _ G K); [|reflexivity|exact IH]. apply quiet1. auto.
Qed.

(** ** mln_tcp_conn_send *)
Lemma good_weaker s r s' o o' (P Q : Prop) : (P -> Q) -> good s r s' o o' P -> good s r s' o o' Q.
Proof. intros H (p & u & G & K & V & U & Z). exists p, u. split; [exact G|]. split; [exact K|]. split; [exact V|]. split; [exact U|]. intros E. destruct (Z E); auto. Qed.
Lemma memory_ok b s o : plain_build b ->
  match send_memory b s o with Wait => True | Bad => False | Ret r s' o' => good s r s' o o' (blocks b = true \/ collect page (snd s') = []) end.
Proof.
  intros [W _]. unfold send_memory. rewrite W. destruct (blocks b).
  - pose proof (send_bl_ok o s) as H. destruct (send_bl o s); auto. eapply good_weaker; [|exact H]. auto.
  - pose proof (send_nb_ok o s) as H. destruct (send_nb o s); auto. eapply good_weaker; [|exact H]. auto.
Qed.
Lemma file_ok b s o : plain_build b -> Forall sound (snd s) ->
  match send_file b s o with Wait => True | Bad => False | Ret r s' o' => good s r s' o o' (blocks b = true \/ snd s' = [] \/ head_in_memory s' = true) end.
Proof.
  intros [_ W] S1. unfold send_file. destruct s as [c t w]. cbn [snd sent wire] in *. destruct (has_sendfile b), (blocks b).
  - pose proof (file_bl_ok c t w o S1) as H. destruct (file_bl c t w o); auto. eapply good_weaker; [|exact H]. auto.
  - destruct W; discriminate.
  - pose proof (file2_bl_ok c t w o S1) as H. destruct (file2_bl c t w o); auto. eapply good_weaker; [|exact H]. auto.
  - pose proof (file2_nb_ok c t w o S1) as H. destruct (file2_nb c t w o); auto. eapply good_weaker; [|exact H]. auto.
Qed.
Lemma goes_shorter s s' p : goes s s' p [] -> head_in_file s = true -> head_in_memory s' = true -> length (snd s') < length (snd s).
Proof.
  intros (_ & W & _) F M. cbn [app] in W. assert (L : length (snd s) = length p + length (snd s')) by (rewrite <- (map_length whole (snd s)), W, map_length, app_length; reflexivity).
  destruct p as [|x p]; [|cbn [length] in L; lia]. exfalso. unfold head_in_file in F. unfold head_in_memory in M.
  destruct (snd s) as [|[[|]|] c]; try discriminate. destruct (snd s') as [|[[|]|] c']; discriminate.
Qed.
Lemma collect_lively c : Forall lively c -> collect page c = [] -> match c with Some (Mem _ _ _) :: _ => False | _ => True end.
Proof.
  intros H E. destruct c as [|[[b a m|]|] c]; auto. inversion H as [|? ? H1 _]; subst. cbn [lively some_left] in H1. destruct a as [|y a]; [discriminate|].
  cbn [collect] in E. destruct (Nat.ltb_spec page (length (y :: a))) as [L|L]; [|discriminate]. assert (P : 1 <= page) by (unfold page; lia). destruct page; [lia|]. discriminate.
Qed.
Lemma send_loop_ok b : plain_build b -> forall fuel s o, length (snd s) < fuel -> Forall sound (snd s) ->
  match send_loop fuel b s o with
  | Waits => True
  | Undefined => False
  | Returns r s' o' => exists p u, goes s s' p [] /\ keeps (snd s) (snd s') /\ verdict r p /\ used o o' u /\
      (r = NOTYET -> In Again u \/ blocks b = true \/ (Forall lively (snd s) -> snd s' = []))
  end.
Proof.
  intros B. induction fuel as [|fuel IH]; intros s o L S1; [lia|]. cbn [send_loop]. pose proof (memory_ok b s o B) as M. destruct (send_memory b s o) as [| |r s1 o1]; auto.
  destruct r; cbn [code_of].
  - destruct M as (p & u & G & K & V & U & Z). exists p, u. split; [exact G|]. split; [exact K|]. split; [exact V|]. split; [exact U|discriminate].
  - destruct M as (p & u & G & K & V & U & Z). cbn [code_of verdict] in V. destruct (head_in_file s1) eqn:F.
    + assert (S2 : Forall sound (snd s1)) by (apply K; exact S1). pose proof (file_ok b s1 o1 B S2) as X. destruct (send_file b s1 o1) as [| |r s2 o2]; auto.
      destruct X as (p2 & u2 & G2 & K2 & V2 & U2 & Z2).
      assert (R : exists p u, goes s s2 p [] /\ keeps (snd s) (snd s2) /\ verdict (code_of r) p /\ used o o2 u /\ (r = Zero -> In Again u \/ blocks b = true \/ snd s2 = [] \/ head_in_memory s2 = true)).
      { exists (p ++ p2), (u ++ u2). split; [eapply goes_trans; eauto|]. split; [eapply keeps_trans; eauto|]. split; [now apply verdict_after|]. split; [unfold used in *; now rewrite U, U2, app_assoc|].
        intros E. destruct (Z2 E) as [I1|I1]; [left; apply in_or_app; auto|auto]. }
      destruct R as (p3 & u3 & G3 & K3 & V3 & U3 & Z3).
      destruct r; cbn [code_of] in *; [exists p3, u3; repeat (split; [assumption|]); discriminate| |exists p3, u3; repeat (split; [assumption|]); discriminate].
      destruct (head_in_memory s2) eqn:H2.
      * assert (S3 : Forall sound (snd s2)) by (apply K3; exact S1). pose proof (goes_shorter _ _ _ G2 F H2) as L2.
        assert (L3 : length (snd s1) <= length (snd s)).
        { destruct G as (_ & W & _). cbn [app] in W. rewrite <- (map_length whole (snd s)), W, map_length, app_length. lia. }
        specialize (IH s2 o2 ltac:(lia) S3). destruct (send_loop fuel b s2 o2) as [| |r s4 o4]; auto. destruct IH as (p4 & u4 & G4 & K4 & V4 & U4 & Z4).
        exists (p3 ++ p4), (u3 ++ u4). split; [eapply goes_trans; eauto|]. split; [eapply keeps_trans; eauto|]. split; [now apply verdict_after|]. split; [unfold used in *; now rewrite U3, U4, app_assoc|].
        intros E. destruct (Z4 E) as [I1|[I1|I1]]; [left; apply in_or_app; auto|auto|]. right. right. intros Lv. apply I1. apply K3. exact Lv.
      * exists p3, u3. repeat (split; [assumption|]). intros _. destruct (Z3 eq_refl) as [I1|[I1|[I1|I1]]]; auto. discriminate.
    + exists p, u. split; [exact G|]. split; [exact K|]. split; [exact V|]. split; [exact U|]. intros _. destruct (Z eq_refl) as [I1|[I1|I1]]; auto. right. right. intros Lv.
      assert (Lv' : Forall lively (snd s1)) by (apply K; exact Lv). pose proof (collect_lively _ Lv' I1) as C. unfold head_in_file in F.
      destruct (snd s1) as [|[[b0 a m|]|] c]; [reflexivity|contradiction|discriminate|]. inversion Lv' as [|? ? X _]; destruct X.
  - destruct M as (p & u & G & K & V & U & Z). exists p, u. split; [exact G|]. split; [exact K|]. split; [exact V|]. split; [exact U|discriminate].
Qed.
Lemma conn_send_ok b s o : plain_build b -> Forall sound (snd s) ->
  match conn_send b s o with
  | Waits => True
  | Undefined => False
  | Returns r s' o' => exists p u, goes s s' p [] /\ keeps (snd s) (snd s') /\ verdict r p /\ used o o' u /\
      (r = NOTYET -> In Again u \/ blocks b = true \/ (Forall lively (snd s) -> snd s' = []))
  end.
Proof.
  intros B S1. unfold conn_send. destruct (snd s) eqn:E.
  - exists [], []. split; [apply goes_refl|]. rewrite E. split; [apply keeps_refl|]. split; [constructor|]. split; [reflexivity|auto].
  - rewrite <- E in *. apply send_loop_ok; auto.
Qed.

(** ** writev *)
Definition tidy (x : option buf) : Prop := in_memory x /\ (marked x -> unsent x <> []).
Lemma consume_tidy : forall c n, Forall tidy c -> match consume c n with (p, q, d) => Forall tidy q end.
Proof.
  induction c as [|x c IH]; intros n T; [constructor|]. inversion T as [|? ? T1 T2]; subst. destruct x as [[b a m|d ps l m]|]; cbn [consume].
  - destruct (Nat.leb_spec (length a) n) as [L|L].
    + destruct (m || _); [exact T2|]. specialize (IH (n - length a) T2). destruct (consume c (n - length a)) as [[p q] d]. exact IH.
    + constructor; [|exact T2]. split; [exact I|]. intros _. cbn [unsent]. intros E. assert (X : length (skipn n a) = 0) by now rewrite E. rewrite skipn_length in X. lia.
  - exact T.
  - specialize (IH n T2). destruct (consume c n) as [[p q] d]. exact IH.
Qed.
Lemma gather_nil : forall c room, Forall tidy c -> gather (S room) c = [] -> pending c = [].
Proof.
  induction c as [|x c IH]; intros room T E; [reflexivity|]. inversion T as [|? ? [T1 T1'] T2]; subst. destruct x as [[b a m|d ps l m]|]; cbn [gather] in E.
  - destruct a; [|discriminate]. destruct m; [exfalso; now apply T1'|]. rewrite pending_cons. apply (IH room); auto.
  - destruct T1.
  - rewrite pending_cons. apply (IH room); auto.
Qed.
Definition wverdict (r : code) (p q : chain) : Prop :=
  match r with
  | FINISH => verdict FINISH p \/ quiet p /\ exists x r, q = x :: r /\ marked x /\ unsent x <> []
  | CLOSED => False
  | _ => quiet p
  end.
Definition wgood (s : conn) (r : ret) (s' : conn) (o o' : list ans) (stop : Prop) : Prop :=
  exists p g u, goes s s' p g /\ Forall tidy (snd s') /\ wverdict (code_of r) p (snd s') /\ used o o' u /\ (r = Zero -> In Again u \/ stop).
Lemma released s : Forall tidy (snd s) -> gather 256 (snd s) = [] -> goes s (mkC [] (sent s) (wire s)) [] (snd s).
Proof.
  intros T E. apply (gather_nil _ 255) in E; [|exact T]. unfold goes. cbn [snd sent wire app]. rewrite !app_nil_r. repeat split; auto. rewrite E. now rewrite app_nil_r.
Qed.
Lemma wverdict_after r p1 p2 q : quiet p1 -> wverdict r p2 q -> wverdict r (p1 ++ p2) q.
Proof.
  intros Q V. destruct r; cbn [wverdict] in *; [|apply Forall_app; auto|apply Forall_app; auto|exact V].
  destruct V as [V|[V X]]; [left; now apply verdict_after|right; split; [apply Forall_app; auto|exact X]].
Qed.
Lemma wgood_here s r o a o' stop : Forall tidy (snd s) -> r <> Pos -> o = a :: o' -> (r = Zero -> a = Again \/ stop) -> wgood s r s o o' stop.
Proof.
  intros T N1 E Z. exists [], [], [a]. split; [apply goes_refl|]. split; [exact T|]. split; [destruct r; [constructor|constructor|congruence]|]. split; [exact E|].
  intros X. destruct (Z X) as [->|]; [left; left; reflexivity|auto].
Qed.
Lemma wgood_first s s1 r s2 p u o o' o2 stop : goes s s1 p [] -> quiet p -> used o o' u -> wgood s1 r s2 o' o2 stop -> wgood s r s2 o o2 stop.
Proof.
  intros G Q U (p2 & g & u2 & G2 & K2 & V2 & U2 & Z2). exists (p ++ p2), g, (u ++ u2). split; [eapply goes_trans; eauto|]. split; [exact K2|].
  split; [now apply wverdict_after|]. split; [unfold used in *; rewrite U, U2, app_assoc; reflexivity|]. intros E. destruct (Z2 E) as [I1|I1]; [left; apply in_or_app; auto|auto].
Qed.
Lemma wgood_empty s o (stop : Prop) : Forall tidy (snd s) -> gather 256 (snd s) = [] -> stop -> wgood s Zero (mkC [] (sent s) (wire s)) o o stop.
Proof. intros T E St. exists [], (snd s), []. split; [now apply released|]. split; [constructor|]. split; [constructor|]. split; [reflexivity|auto]. Qed.
Lemma concat_length1 v (l : list (list N)) room c : gather room c = v :: l -> 1 <= length (concat (v :: l)).
Proof.
  revert room. induction c as [|x c IH]; intros room E; [discriminate|]. destruct room as [|room]; [discriminate|]. destruct x as [[b a m|d ps q m]|]; cbn [gather] in E; [|discriminate|eauto].
  destruct a as [|y a]; [destruct m; [discriminate|eauto]|]. injection E as <- _. cbn [concat app length]. lia.
Qed.
Lemma writev_nb_ok : forall o s, Forall tidy (snd s) -> match writev_nb o s with Wait => True | Bad => False | Ret r s' o' => wgood s r s' o o' (snd s' = []) end.
Proof.
  induction o as [|a o IH]; intros s T; cbn [writev_nb].
  - destruct (gather 256 (snd s)) eqn:E; [now apply wgood_empty|exact I].
  - destruct (gather 256 (snd s)) as [|y v] eqn:E; [now apply wgood_empty|]. destruct a as [k| | |].
    + pose proof (taken_ok k (length (concat (y :: v))) (concat_length1 _ _ _ _ E)) as Tk. set (n := taken k (length (concat (y :: v)))) in *.
      pose proof (consume_ok (snd s) 256 n ltac:(rewrite E; exact Tk)) as C. pose proof (consume_tidy (snd s) n T) as Tq. destruct (consume (snd s) n) as [[p q] d].
      destruct C as [M V]. rewrite E in M. destruct (goes_advance s p q _ M) as [G K]. destruct d.
      * exists p, [], [Ok k]. split; [exact G|]. split; [exact Tq|]. split; [exact V|]. split; [reflexivity|discriminate].
      * specialize (IH (advance s p q (firstn n (concat (y :: v)))) Tq). destruct (writev_nb o _); auto. apply (wgood_first s _ _ _ p [Ok k] _ o _ _ G V eq_refl IH).
    + specialize (IH s T). destruct (writev_nb o s); auto. apply (wgood_first s s _ _ [] [Intr] _ o); auto; [apply goes_refl|constructor|reflexivity].
    + apply (wgood_here s _ _ Again); [exact T|discriminate|reflexivity|auto].
    + apply (wgood_here s _ _ Fail); [exact T|discriminate|reflexivity|discriminate].
Qed.
Lemma writev_bl_ok : forall o s, Forall tidy (snd s) -> match writev_bl o s with Wait => True | Bad => False | Ret r s' o' => wgood s r s' o o' True end.
Proof.
  induction o as [|a o IH]; intros s T; cbn [writev_bl].
  - destruct (gather 256 (snd s)) eqn:E; [now apply wgood_empty|exact I].
  - destruct (gather 256 (snd s)) as [|y v] eqn:E; [now apply wgood_empty|]. destruct a as [k| | |].
    + pose proof (taken_ok k (length (concat (y :: v))) (concat_length1 _ _ _ _ E)) as Tk. set (n := taken k (length (concat (y :: v)))) in *.
      pose proof (consume_ok (snd s) 256 n ltac:(rewrite E; exact Tk)) as C. pose proof (consume_tidy (snd s) n T) as Tq. destruct (consume (snd s) n) as [[p q] d].
      destruct C as [M V]. rewrite E in M. destruct (goes_advance s p q _ M) as [G K].
      exists p, [], [Ok k]. split; [exact G|]. split; [exact Tq|]. split; [destruct d; exact V|]. split; [reflexivity|auto].
    + specialize (IH s T). destruct (writev_bl o s); auto. apply (wgood_first s s _ _ [] [Intr] _ o); auto; [apply goes_refl|constructor|reflexivity].
    + apply (wgood_here s _ _ Again); [exact T|discriminate|reflexivity|discriminate].
    + apply (wgood_here s _ _ Fail); [exact T|discriminate|reflexivity|discriminate].
Qed.
Lemma conn_send_writev_ok b s o : has_writev b = true -> Forall tidy (snd s) ->
  match conn_send b s o with
  | Waits => True
  | Undefined => False
  | Returns r s' o' => exists p g u, goes s s' p g /\ Forall tidy (snd s') /\ wverdict r p (snd s') /\ used o o' u /\ (r = NOTYET -> In Again u \/ blocks b = true \/ snd s' = [])
  end.
Proof.
  intros W T. unfold conn_send. destruct (snd s) eqn:Es.
  { exists [], [], []. split; [apply goes_refl|]. rewrite Es. split; [constructor|]. split; [constructor|]. split; [reflexivity|auto]. }
  rewrite <- Es in *. cbn [send_loop].
  assert (M : match send_memory b s o with Wait => True | Bad => False | Ret r s' o' => wgood s r s' o o' (blocks b = true \/ snd s' = []) end).
  { unfold send_memory. rewrite W. destruct (blocks b).
    - pose proof (writev_bl_ok o s T) as H. destruct (writev_bl o s); auto. destruct H as (p & g & u & G & K & V & U & Z). exists p, g, u. repeat (split; [assumption|]). auto.
    - pose proof (writev_nb_ok o s T) as H. destruct (writev_nb o s); auto. destruct H as (p & g & u & G & K & V & U & Z). exists p, g, u. repeat (split; [assumption|]). intros E. destruct (Z E); auto. }
  destruct (send_memory b s o) as [| |r s' o']; auto. destruct M as (p & g & u & G & K & V & U & Z).
  destruct r; cbn [code_of] in *; [exists p, g, u; repeat (split; [assumption|]); discriminate| |exists p, g, u; repeat (split; [assumption|]); discriminate].
  assert (F : head_in_file s' = false).
  { unfold head_in_file. destruct (snd s') as [|[[|]|] c']; auto. inversion K as [|? ? [X _] _]. destruct X. }
  rewrite F. exists p, g, u. repeat (split; [assumption|]). auto.
Qed.

(** ** Histories *)
Lemma map_whole_sound c1 c2 : map whole c1 = map whole c2 -> length c1 = length c2.
Proof. intros H. now rewrite <- (map_length whole c1), H, map_length. Qed.
Lemma history_ok b : plain_build b -> forall ops s t, Forall sound (snd s ++ queued ops) -> pending t = [] -> pending (sent s) = [] ->
  match history b ops s t with
  | Some (s', t') => map whole (t' ++ sent s' ++ snd s') = map whole (t ++ sent s ++ snd s ++ queued ops) /\
      wire s' ++ pending (snd s') = wire s ++ pending (snd s ++ queued ops) /\ pending (t' ++ sent s') = []
  | None => True
  end.
Proof.
  intros B. induction ops as [|x ops IH]; intros s t S1 T1 T2; cbn [history].
  - unfold queued. cbn [map concat]. rewrite app_nil_r, pending_app, T1, T2. auto.
  - destruct x as [c|o|].
    + change (queued (Queue c :: ops)) with (c ++ queued ops) in *. specialize (IH (append_chain s c) t). unfold append_chain in IH. cbn [snd sent wire] in IH. rewrite <- !app_assoc in IH. apply IH; auto.
    + change (queued (Send o :: ops)) with (queued ops) in *. apply Forall_app in S1 as [S1 S2]. pose proof (conn_send_ok b s o B S1) as C. destruct (conn_send b s o) as [| |r s' o']; auto.
      destruct C as (p & u & G & K & _). assert (S3 : Forall sound (snd s')) by (apply K; exact S1). destruct G as (G1 & G2 & G3 & _ & G5). cbn [app] in G2.
      specialize (IH s' t ltac:(apply Forall_app; auto) T1 ltac:(rewrite G1, pending_app, T2, G3; reflexivity)). destruct (history b ops s' t) as [[s2 t2]|]; auto.
      destruct IH as (I1 & I2 & I3). split; [|split; [|exact I3]].
      * rewrite I1, G1. rewrite <- !app_assoc, !map_app, G2, !map_app, <- !app_assoc. reflexivity.
      * rewrite I2, !pending_app, !app_assoc, G5. reflexivity.
    + change (queued (Take :: ops)) with (queued ops) in *. specialize (IH (remove_sent s) (t ++ sent s) S1). unfold remove_sent in IH. cbn [snd sent wire] in IH. rewrite pending_app, T1, T2 in IH. specialize (IH eq_refl eq_refl).
      rewrite <- !app_assoc in IH. exact IH.
Qed.

(** ** Receiving *)
Lemma taken_room k n : taken k (Nat.min 1024 n) <= N.to_nat 1024 /\ taken k (Nat.min 1024 n) <= n /\ (taken k (Nat.min 1024 n) = 0 -> n = 0).
Proof. unfold taken. lia. Qed.
Lemma recv1_piece s a l : recv1 s a = GPiece l -> 1 <= length l <= N.to_nat 1024 /\ coming s = l ++ skipn (length l) (coming s).
Proof.
  unfold recv1. destruct a as [k| | |]; try discriminate. pose proof (taken_room k (length (coming s))) as T. destruct (taken k (Nat.min 1024 (length (coming s)))) as [|n]; [discriminate|].
  intros E. assert (El : l = firstn (S n) (coming s)) by congruence. clear E. subst l. assert (L : length (firstn (S n) (coming s)) = S n) by (rewrite firstn_length; lia).
  split; [rewrite L; lia|]. rewrite L. symmetry. apply firstn_skipn.
Qed.
Lemma recv1_end s a : recv1 s a = GEnd -> coming s = [].
Proof.
  unfold recv1. destruct a as [k| | |]; try discriminate. pose proof (taken_room k (length (coming s))) as T. destruct (taken k _); [|discriminate].
  intros _. destruct (coming s); [reflexivity|]. cbn [length] in T. lia.
Qed.
Definition rgood (P : option buf -> Prop) (s : inbox) (r : code) (s' : inbox) : Prop :=
  exists c, rcv s' = rcv s ++ c /\ Forall piece c /\ pending c ++ coming s' = coming s /\ Forall P c.
Lemma rgood_refl P s r : rgood P s r s.
Proof. exists []. rewrite app_nil_r. repeat split; constructor. Qed.
Lemma rgood_first (P : option buf -> Prop) s r s2 x l : P x -> piece x -> unsent x = l -> coming s = l ++ skipn (length l) (coming s) -> rgood P (mkI (skipn (length l) (coming s)) (rcv s ++ [x])) r s2 -> rgood P s r s2.
Proof.
  intros P1 P2 U E (c & C1 & C2 & C3 & C4). cbn [rcv coming] in *. exists (x :: c). rewrite C1, <- app_assoc. split; [reflexivity|]. split; [now constructor|].
  split; [|now constructor]. rewrite pending_cons, U, <- app_assoc, C3. symmetry. exact E.
Qed.
Lemma recv_mem_ok block : forall o s, match recv_mem block s o with
  | RWaits => True
  | RReturns r s' o' => rgood in_memory s r s' /\ exists u, used o o' u /\
      match r with FINISH => False | NOTYET => if block then True else In Again u | CLOSED => coming s' = [] | ERROR => In Fail u end
  end.
Proof.
  induction o as [|a o IH]; intros s; cbn [recv_mem]; [exact I|]. destruct (recv1 s a) as [l| | | |] eqn:E.
  - destruct (recv1_piece s a l E) as [L C]. assert (P : piece (Some (Mem [] l false))) by (split; [exact L|discriminate]).
    destruct block.
    + split; [|exists [a]; split; [reflexivity|exact I]]. apply (rgood_first in_memory s _ _ (Some (Mem [] l false)) l I P eq_refl C). apply rgood_refl.
    + specialize (IH (mkI (skipn (length l) (coming s)) (rcv s ++ [Some (Mem [] l false)]))). destruct (recv_mem false _ o) as [|r s' o']; [exact I|].
      destruct IH as [G (u & U & V)]. split; [apply (rgood_first in_memory s _ _ (Some (Mem [] l false)) l I P eq_refl C G)|]. exists (a :: u). split; [unfold used in *; rewrite U; reflexivity|].
      destruct r; auto; right; exact V.
  - split; [apply rgood_refl|]. exists [a]. split; [reflexivity|]. apply (recv1_end s a E).
  - specialize (IH s). destruct (recv_mem block s o) as [|r s' o']; [exact I|]. destruct IH as [G (u & U & V)]. split; [exact G|]. exists (a :: u). split; [unfold used in *; rewrite U; reflexivity|].
    destruct r; auto; [destruct block; [exact I|right; exact V]|right; exact V].
  - split; [apply rgood_refl|]. exists [a]. split; [reflexivity|]. destruct block; [exact I|]. left. unfold recv1 in E. destruct a; try discriminate; [destruct (taken _ _); discriminate|reflexivity].
  - split; [apply rgood_refl|]. exists [a]. split; [reflexivity|]. left. unfold recv1 in E. destruct a; try discriminate; [destruct (taken _ _); discriminate|reflexivity].
Qed.
Lemma last_file_app c d p l m : last_file (c ++ [Some (File d p l m)]) = Some (d, l).
Proof. unfold last_file. now rewrite last_last. Qed.
Lemma the_file_ok follow c f d from f' : at_end c -> the_file follow c f = Some (Some (d, from), f') -> from = length d /\ exists x, f = x ++ f'.
Proof.
  unfold the_file, at_end. intros A E. destruct follow.
  - destruct (last_file c) as [[d1 l1]|].
    + injection E as -> -> ->. split; [exact A|]. exists []. reflexivity.
    + destruct f as [|[k| | |] f]; try discriminate. injection E as <- <- <-. split; [reflexivity|]. exists [Ok k]. reflexivity.
  - destruct f as [|[k| | |] f]; try discriminate. injection E as <- <- <-. split; [reflexivity|]. exists [Ok k]. reflexivity.
Qed.
Lemma recv_file_ok block follow : forall o s f, Forall full f -> at_end (rcv s) ->
  match recv_file block follow s o f with
  | RWaits => True
  | RReturns r s' o' => at_end (rcv s') /\ (r = ERROR \/ rgood (fun x => ~ in_memory x) s r s') /\ (r = CLOSED -> coming s' = []) /\ r <> FINISH
  end.
Proof.
  induction o as [|a o IH]; intros s f F A; cbn [recv_file]; [exact I|]. destruct (recv1 s a) as [l| | | |] eqn:E.
  - destruct (recv1_piece s a l E) as [L C]. destruct (the_file follow (rcv s) f) as [[[[d from]|] f1]|] eqn:T; auto; [|split; [exact A|]; split; [auto|split; discriminate]].
    destruct (the_file_ok _ _ _ _ _ _ A T) as [Fr (x & X)]. rewrite X in F. apply Forall_app in F as [_ F].
    destruct f1 as [|[k| | |] f1]; auto; try (split; [exact A|]; split; [auto|split; discriminate]).
    inversion F as [|? ? F1 F2]; subst. cbn [full] in F1.
    assert (Tk : taken k (length l) = length l) by (unfold taken; lia). rewrite Tk, firstn_all.
    set (y := Some (File (d ++ l) (length d) (length d + length l) false)).
    assert (U : unsent y = l). { unfold y, unsent. replace (length d + length l - length d) with (length l) by lia. rewrite skipn_app, skipn_all, Nat.sub_diag. cbn [skipn app]. apply firstn_all. }
    assert (P : piece y) by (split; [rewrite U; exact L|discriminate]).
    assert (A' : at_end (rcv s ++ [y])). { unfold at_end, y. rewrite last_file_app. rewrite app_length. reflexivity. }
    destruct block.
    + split; [exact A'|]. split; [|split; discriminate]. right. apply (rgood_first (fun x => ~ in_memory x) s _ _ y l (fun X => X) P U C). apply rgood_refl.
    + specialize (IH (mkI (skipn (length l) (coming s)) (rcv s ++ [y])) f1 F2 A'). destruct (recv_file false follow _ o f1) as [|r s' o']; [exact I|].
      destruct IH as (I1 & [I2|I2] & I3); split; auto. split; [|exact I3]. right. apply (rgood_first (fun x => ~ in_memory x) s _ _ y l (fun X => X) P U C I2).
  - split; [exact A|]. split; [right; apply rgood_refl|]. split; [intros _; apply (recv1_end s a E)|discriminate].
  - apply IH; auto.
  - split; [exact A|]. split; [right; apply rgood_refl|]. split; discriminate.
  - split; [exact A|]. split; [right; apply rgood_refl|]. split; discriminate.
Qed.

(** ** What was sent stays sent *)
Definition grows (w : list N) (x : res) : Prop := match x with Ret _ s' _ => exists v, wire s' = w ++ v | _ => True end.
Lemma grows_after w v x : grows (w ++ v) x -> grows w x.
Proof. destruct x as [| |r s o]; cbn [grows]; auto. intros [u E]. exists (v ++ u). now rewrite app_assoc. Qed.
Lemma grows_here w r c t v o : grows w (Ret r (mkC c t (w ++ v)) o).
Proof. exists v. reflexivity. Qed.
Lemma grows_same w r c t o : grows w (Ret r (mkC c t w) o).
Proof. exists []. symmetry. apply app_nil_r. Qed.
Lemma grows_state r s o : grows (wire s) (Ret r s o).
Proof. exists []. symmetry. apply app_nil_r. Qed.
Lemma send_memory_grows b s o : grows (wire s) (send_memory b s o).
Proof.
  unfold send_memory. destruct (has_writev b), (blocks b).
  - revert s. induction o as [|a o IH]; intros s; cbn [writev_bl]; (destruct (gather 256 (snd s)); [apply grows_same|]); [exact I|].
    destruct a; [|apply IH|apply grows_state|apply grows_state]. destruct (consume (snd s) _) as [[p q] d]. apply grows_here.
  - revert s. induction o as [|a o IH]; intros s; cbn [writev_nb]; (destruct (gather 256 (snd s)); [apply grows_same|]); [exact I|].
    destruct a; [|apply IH|apply grows_state|apply grows_state]. destruct (consume (snd s) _) as [[p q] d]. destruct d; [apply grows_here|].
    eapply grows_after. apply (IH (advance s p q _)).
  - revert s. induction o as [|a o IH]; intros s; cbn [send_bl]; (destruct (collect page (snd s)); [apply grows_state|]); [exact I|].
    destruct a; [|apply IH|apply grows_state|apply grows_state]. destruct (consume2 (snd s) _) as [[[p q] d]|]; [|exact I]. apply grows_here.
  - revert s. induction o as [|a o IH]; intros s; cbn [send_nb]; (destruct (collect page (snd s)); [apply grows_state|]); [exact I|].
    destruct a; [|apply IH|apply grows_state|apply grows_state]. destruct (consume2 (snd s) _) as [[[p q] d]|]; [|exact I]. destruct d; [apply grows_here|].
    eapply grows_after. apply (IH (advance s p q _)).
Qed.
Lemma send_file_grows b s o : grows (wire s) (send_file b s o).
Proof.
  unfold send_file. destruct s as [c t w]. cbn [snd sent wire]. destruct (has_sendfile b), (blocks b); revert t w o; induction c as [|x c IH]; intros t w o.
  - apply grows_same.
  - cbn [file_bl]. destruct x as [x|]; [|apply IH]. destruct (some_left x); [|destruct (mark x); [apply grows_same|apply IH]].
    destruct x as [b1 a1 m|d p l m]; [apply grows_same|]. destruct (sendfile true 0 d p l o); [exact I| |]; apply grows_here.
  - apply grows_same.
  - cbn [file_nb]. destruct x as [[b1 a1 m|d p l m]|]; [apply grows_same| |apply IH].
    destruct (if Nat.eqb p l then _ else _); [exact I| |apply grows_here]. destruct m; [apply grows_here|]. eapply grows_after. apply IH.
  - apply grows_same.
  - cbn [file2_bl]. destruct x as [[b1 a1 m|d p l m]|]; [apply grows_same| |apply IH].
    destruct (Nat.eqb p l); [destruct m; [apply grows_same|apply IH]|]. destruct (readsend true d p l None o); [exact I| |]; apply grows_here.
  - apply grows_same.
  - cbn [file2_nb]. destruct x as [[b1 a1 m|d p l m]|]; [apply grows_same| |apply IH].
    destruct (if Nat.eqb p l then _ else _); [exact I| |apply grows_here]. destruct m; [apply grows_here|]. eapply grows_after. apply IH.
Qed.
Lemma conn_send_extends b s o r s' o' : conn_send b s o = Returns r s' o' -> exists w, wire s' = wire s ++ w.
Proof.
  assert (L : forall fuel s o, match send_loop fuel b s o with Returns _ s' _ => exists w, wire s' = wire s ++ w | _ => True end).
  { clear. induction fuel as [|fuel IH]; intros s o; cbn [send_loop]; [exact I|]. pose proof (send_memory_grows b s o) as G. destruct (send_memory b s o) as [| |e s1 o1]; auto.
    cbn [grows] in G. destruct G as [v G]. assert (X : exists w, wire s1 = wire s ++ w) by (exists v; exact G). destruct e; auto.
    destruct (head_in_file s1); auto. pose proof (send_file_grows b s1 o1) as G2. destruct (send_file b s1 o1) as [| |e s2 o2]; auto.
    cbn [grows] in G2. destruct G2 as [u G2]. assert (Y : exists w, wire s2 = wire s ++ w) by (exists (v ++ u); now rewrite G2, G, app_assoc).
    destruct e; auto. destruct (head_in_memory s2); auto. specialize (IH s2 o2). destruct (send_loop fuel b s2 o2); auto.
    destruct IH as [z E]. destruct Y as [y Y]. exists (y ++ z). now rewrite E, Y, app_assoc. }
  unfold conn_send. intros E. destruct (snd s) eqn:Es.
  - injection E as <- <- <-. exists []. symmetry. apply app_nil_r.
  - rewrite <- Es in E. specialize (L (S (length (snd s))) s o). rewrite E in L. exact L.
Qed.

(** ** Errors *)
Definition blames (hard : bool) (o : list ans) (x : res) : Prop :=
  match x with Ret Neg _ o' => exists u, used o o' u /\ (In Fail u \/ hard = true /\ In Again u) | _ => True end.
Lemma blames_after hard a o x : blames hard o x -> blames hard (a :: o) x.
Proof.
  destruct x as [| |r s o']; cbn [blames]; auto. destruct r; auto. intros (u & E & I). exists (a :: u). unfold used in *. split; [now rewrite E|].
  destruct I as [I|[H I]]; [left; now right|right; split; [exact H|now right]].
Qed.
Lemma send_memory_blames b s o : has_writev b = false -> blames (blocks b) o (send_memory b s o).
Proof.
  intros B. unfold send_memory. rewrite B. destruct (blocks b).
  - revert s. induction o as [|a o IH]; intros s; cbn [send_bl]; (destruct (collect page (snd s)); [exact I|]); [exact I|].
    destruct a; [|apply blames_after, IH| |]; [|exists [Again]; split; [reflexivity|right; split; [reflexivity|now left]]|exists [Fail]; split; [reflexivity|left; now left]].
    destruct (consume2 (snd s) _) as [[[p q] d]|]; [|exact I]. destruct d; exact I.
  - revert s. induction o as [|a o IH]; intros s; cbn [send_nb]; (destruct (collect page (snd s)); [exact I|]); [exact I|].
    destruct a; [|apply blames_after, IH|exact I|]; [|exists [Fail]; split; [reflexivity|left; now left]].
    destruct (consume2 (snd s) _) as [[[p q] d]|]; [|exact I]. destruct d; [exact I|]. apply blames_after, IH.
Qed.
Lemma conn_send_blames b s o s' o' : plain_build b -> Forall in_memory (snd s) -> conn_send b s o = Returns ERROR s' o' ->
  exists u, used o o' u /\ (In Fail u \/ blocks b = true /\ In Again u).
Proof.
  intros B M. assert (W : has_writev b = false) by apply B. unfold conn_send. destruct (snd s) as [|x c] eqn:Es; [discriminate|]. cbn [send_loop]. pose proof (send_memory_blames b s o W) as X.
  assert (K : match send_memory b s o with Ret _ s1 _ => Forall in_memory (snd s1) | _ => True end).
  { unfold send_memory. rewrite W. destruct (blocks b).
    - pose proof (send_bl_ok o s) as G. destruct (send_bl o s) as [| |r s1 o1]; auto. destruct G as (p & u & _ & (_ & _ & G) & _). apply G. now rewrite Es.
    - pose proof (send_nb_ok o s) as G. destruct (send_nb o s) as [| |r s1 o1]; auto. destruct G as (p & u & _ & (_ & _ & G) & _). apply G. now rewrite Es. }
  destruct (send_memory b s o) as [| |r s1 o1]; try discriminate. destruct r; cbn [blames] in X.
  - intros E. injection E as <- <-. exact X.
  - destruct (head_in_file s1) eqn:H; [|discriminate]. exfalso. unfold head_in_file in H. destruct (snd s1) as [|[[]|] ?]; try discriminate. exact (Forall_inv K).
  - discriminate.
Qed.

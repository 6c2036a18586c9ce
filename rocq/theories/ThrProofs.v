(** * Messages between threads: proofs *)
Require Import List Arith NArith Bool Lia.
Require Import ZifyBool ZifyNat ZifyN.
Require Import Verif.Base Verif.ThrModel Verif.ThrSpec.
Import ListNotations.
Open Scope N_scope.

(** ** Cutting streams *)
Definition whole (m : bytes) : Prop := length m = 72%nat.
Lemma cut_fuel : forall f g l, (length l <= f)%nat -> (length l <= g)%nat -> cut f l = cut g l.
Proof.
  induction f as [|f IH]; intros g l F G.
  - destruct g as [|g]; [reflexivity|]. cbn [cut]. now replace (Nat.ltb (length l) 72) with true by lia.
  - destruct g as [|g]; cbn [cut]; [now replace (Nat.ltb (length l) 72) with true by lia|]. destruct (Nat.ltb (length l) 72) eqn:E; [reflexivity|]. f_equal. apply IH; rewrite skipn_length; lia.
Qed.
Lemma messages_short l : (length l < 72)%nat -> messages l = [].
Proof. intros H. unfold messages. destruct (length l) eqn:E; [reflexivity|]. cbn [cut]. rewrite E. now replace (Nat.ltb (S n) 72) with true by lia. Qed.
Lemma messages_cons m r : whole m -> messages (m ++ r) = m :: messages r.
Proof.
  intros W. unfold whole in W. unfold messages at 1. rewrite (cut_fuel _ (S (length (m ++ r))) _) by lia. cbn [cut]. rewrite app_length, W. replace (Nat.ltb (72 + length r) 72) with false by lia.
  rewrite firstn_app, skipn_app, W, Nat.sub_diag. rewrite (firstn_all2 m), (skipn_all2 m) by lia. cbn [firstn skipn]. rewrite app_nil_r. cbn [app]. f_equal. apply cut_fuel; rewrite ?app_length; lia.
Qed.
Lemma messages_app M r : Forall whole M -> messages (concat M ++ r) = M ++ messages r.
Proof. induction M as [|m M IH]; intros F; [reflexivity|]. inversion F; subst. cbn [concat]. rewrite <- app_assoc, messages_cons by auto. cbn [app]. f_equal. auto. Qed.
Lemma messages_concat M : Forall whole M -> messages (concat M) = M.
Proof. intros F. rewrite <- (app_nil_r (concat M)), messages_app by auto. now rewrite messages_short, app_nil_r by (cbn; lia). Qed.
(** The messages of the beginning of a stream are the first ones of the stream. *)
Lemma messages_prefix : forall M g r, Forall whole M -> g ++ r = concat M -> exists k, M = messages g ++ k /\ (r = [] -> k = []).
Proof.
  induction M as [|m M IH]; intros g r F E.
  - apply app_eq_nil in E as [-> ->]. exists []. auto.
  - inversion F as [|? ? W F']; subst. cbn [concat] in E. destruct (Nat.ltb (length g) 72) eqn:L.
    + rewrite messages_short by lia. exists (m :: M). split; [reflexivity|]. intros ->. exfalso. apply (f_equal (@length N)) in E. rewrite !app_length in E. unfold whole in W. cbn [length] in E. lia.
    + assert (g = m ++ skipn 72 g) as G. { rewrite <- (firstn_skipn 72 g) at 1. f_equal. apply (f_equal (firstn 72)) in E. rewrite !firstn_app in E. unfold whole in W. rewrite W in E. replace (72 - length g)%nat with 0%nat in E by lia. rewrite Nat.sub_diag, !firstn_O, !app_nil_r in E. rewrite E. apply firstn_all2. lia. }
      rewrite G in E |- *. rewrite <- app_assoc in E. apply app_inv_head in E. destruct (IH _ _ F' E) as (k & -> & K). exists k. rewrite messages_cons by auto. auto.
Qed.

(** ** Pointers *)
Lemma put_length k : forall n, length (put k n) = k.
Proof. induction k as [|k IH]; intros n; cbn [put length]; auto. Qed.
Lemma get_put : forall k n, n < 256 ^ N.of_nat k -> get (put k n) = n.
Proof.
  induction k as [|k IH]; intros n H; cbn [put get]; [cbn in H; lia|]. rewrite IH.
  - pose proof (N.div_mod n 256). lia.
  - apply N.div_lt_upper_bound; [lia|]. rewrite Nat2N.inj_succ, N.pow_succ_r' in H. lia.
Qed.
Lemma number_get l : number l = get l.
Proof. induction l as [|x l IH]; [reflexivity|]. cbn [number get]. now rewrite IH. Qed.
Lemma same_ok a b : same a b = true <-> a = b.
Proof. unfold same. destruct (list_eq_dec N.eq_dec a b); split; congruence. Qed.
Lemma is_name_text strs p n : is_name strs p n = match text strs p with Some x => same x n | None => false end.
Proof. unfold is_name, text, same. destruct (p =? 0); reflexivity. Qed.
Lemma text_app strs x p d : text strs p = Some d -> text (strs ++ x) p = Some d.
Proof. unfold text. destruct (p =? 0); [discriminate|]. intros H. rewrite nth_error_app1; [exact H|]. apply nth_error_Some. congruence. Qed.
Lemma text_new strs d : text (strs ++ [d]) (N.of_nat (length strs) + 1) = Some d.
Proof. unfold text. replace (N.of_nat (length strs) + 1 =? 0) with false by lia. replace (N.to_nat (N.of_nat (length strs) + 1 - 1)) with (length strs) by lia. rewrite nth_error_app2, Nat.sub_diag by lia. reflexivity. Qed.

Definition known (strs : list bytes) (p : N) : Prop := text strs p <> None.
Lemma is_name_app strs x p n : known strs p -> is_name (strs ++ x) p n = is_name strs p n.
Proof. unfold known. intros K. rewrite !is_name_text. destruct (text strs p) eqn:E; [|congruence]. now rewrite (text_app _ x _ _ E). Qed.
Lemma is_name_known strs p n : is_name strs p n = true -> known strs p.
Proof. rewrite is_name_text. unfold known. destruct (text strs p); congruence. Qed.

Lemma with_src_parts m p : whole m -> whole (with_src m p) /\ firstn 8 (with_src m p) = firstn 8 m /\ firstn 8 (skipn 8 (with_src m p)) = put 8 p /\ body (with_src m p) = body m.
Proof.
  unfold whole. intros W. unfold with_src, body. assert (L : length (firstn 8 m) = 8%nat) by (rewrite firstn_length; lia). assert (P := put_length 8 p).
  assert (S1 : skipn 8 (firstn 8 m ++ put 8 p ++ skipn 16 m) = put 8 p ++ skipn 16 m). { rewrite skipn_app, L, skipn_all2 by lia. reflexivity. }
  assert (F1 : firstn 8 (firstn 8 m ++ put 8 p ++ skipn 16 m) = firstn 8 m). { rewrite firstn_app, L, Nat.sub_diag, firstn_firstn. cbn [firstn Nat.min]. now rewrite app_nil_r. }
  repeat split.
  - rewrite !app_length, L, P, skipn_length. lia.
  - exact F1.
  - rewrite S1. rewrite firstn_app, P, Nat.sub_diag, firstn_all2 by lia. cbn [firstn]. now rewrite app_nil_r.
  - rewrite F1. f_equal. rewrite app_assoc, skipn_app, app_length, L, P. rewrite skipn_all2 by (rewrite app_length; lia). reflexivity.
Qed.

(** ** Threads *)
Lemma find_map_id (f : thr -> thr) (a b : nat) (l : list thr) : (forall t, tid (f t) = tid t) ->
  find (fun t => Nat.eqb (tid t) b) (map (fun t => if Nat.eqb (tid t) a then f t else t) l) =
  match find (fun t => Nat.eqb (tid t) b) l with Some t => Some (if Nat.eqb b a then f t else t) | None => None end.
Proof.
  intros K. induction l as [|t l IH]; [reflexivity|]. cbn [map find]. destruct (Nat.eqb (tid t) a) eqn:A; rewrite ?K; destruct (Nat.eqb (tid t) b) eqn:B; auto.
  - replace (Nat.eqb b a) with true by lia. reflexivity.
  - replace (Nat.eqb b a) with false by lia. reflexivity.
Qed.
Lemma thread_change s a f b : (forall t, tid (f t) = tid t) -> thread (change s a f) b = match thread s b with Some t => Some (if Nat.eqb b a then f t else t) | None => None end.
Proof. intros K. unfold thread, change. cbn [threads]. now apply find_map_id. Qed.
Lemma thread_tid s b t : thread s b = Some t -> tid t = b /\ In t (threads s).
Proof. intros E. apply find_some in E as [I E]. split; [lia|exact I]. Qed.
Lemma thread_in s t : NoDup (map tid (threads s)) -> In t (threads s) -> thread s (tid t) = Some t.
Proof.
  unfold thread. induction (threads s) as [|x l IH]; intros D I; [destruct I|]. cbn [map] in D. inversion D as [|? ? D1 D2]; subst. cbn [find]. destruct I as [-> |I].
  - now rewrite Nat.eqb_refl.
  - destruct (Nat.eqb (tid x) (tid t)) eqn:E; [|auto]. exfalso. apply D1. replace (tid x) with (tid t) by lia. now apply in_map.
Qed.
Lemma change_tids s a f : (forall t, tid (f t) = tid t) -> map tid (threads (change s a f)) = map tid (threads s).
Proof. intros K. unfold change. cbn [threads]. rewrite map_map. apply map_ext. intros t. destruct (Nat.eqb (tid t) a); auto. Qed.

(** What does not depend on the lists of senders. *)
Definition core (t : thr) : thr := mkT (tid t) (name t) (restart t) (unread t) (rcv t) [] (map (fun i => mkI 0 None (what i)) (dest t)) (gone t) (left t) (got t) (armed t).
Definition alike (s s' : st) : Prop := map core (threads s) = map core (threads s') /\ strings s = strings s' /\ ids s = ids s'.
Lemma alike_refl s : alike s s.
Proof. repeat split. Qed.
Lemma alike_trans a b c : alike a b -> alike b c -> alike a c.
Proof. intros (A & B & C) (D & E & F). repeat split; congruence. Qed.
Lemma thread_core s b : option_map core (thread s b) = find (fun t => Nat.eqb (tid t) b) (map core (threads s)).
Proof. unfold thread. induction (threads s) as [|t l IH]; [reflexivity|]. cbn [map find]. change (tid (core t)) with (tid t). destruct (Nat.eqb (tid t) b); [reflexivity|exact IH]. Qed.
Lemma alike_thread s s' b : alike s s' -> option_map core (thread s b) = option_map core (thread s' b).
Proof. intros (A & _). now rewrite !thread_core, A. Qed.
Lemma alike_tids s s' : alike s s' -> map tid (threads s) = map tid (threads s').
Proof. intros (A & _). apply (f_equal (map tid)) in A. rewrite !map_map in A. exact A. Qed.
Lemma alike_names s s' : alike s s' -> map name (threads s) = map name (threads s').
Proof. intros (A & _). apply (f_equal (map name)) in A. rewrite !map_map in A. exact A. Qed.
Lemma alike_change s a f : (forall t, core (f t) = core t) -> alike s (change s a f).
Proof. intros K. repeat split. unfold change. cbn [threads]. rewrite map_map. apply map_ext. intros t. destruct (Nat.eqb (tid t) a); auto. Qed.

Lemma andthen_ok r f s : andthen r f = Ok s -> exists s1, r = Ok s1 /\ f s1 = Ok s.
Proof. destruct r; [eauto|discriminate]. Qed.
Definition quiet (s s' : st) : Prop := threads s = threads s' /\ strings s = strings s' /\ ids s = ids s' /\ keys s = keys s'.
Lemma quiet_alike s s' : quiet s s' -> alike s s'.
Proof. intros (A & B & C & _). repeat split; congruence. Qed.
Lemma free_quiet s p s' : free s p = Ok s' -> quiet s s'.
Proof. unfold free. destruct (p =? 0); [intros [= <-]; repeat split|]. destruct (reads s p); [|discriminate]. intros [= <-]. repeat split. Qed.
Lemma quiet_trans a b c : quiet a b -> quiet b c -> quiet a c.
Proof. intros (A & B & C & D) (E & F & G & H). repeat split; congruence. Qed.
Lemma clear_msg_quiet s m s' : clear_msg s m = Ok s' -> quiet s s'.
Proof. unfold clear_msg. destruct (Nat.ltb _ _); [discriminate|]. intros E. apply andthen_ok in E as (s1 & E1 & E2). eapply quiet_trans; eapply free_quiet; eauto. Qed.
Lemma clear_all_quiet : forall l s s', clear_all s l = Ok s' -> quiet s s'.
Proof. induction l as [|m l IH]; intros s s' E; cbn [clear_all] in E; [injection E as <-; repeat split|]. apply andthen_ok in E as (s1 & E1 & E2). eapply quiet_trans; [eapply clear_msg_quiet; eauto|eauto]. Qed.
Lemma unlink_alike s i s' : unlink s i = Ok s' -> alike s s'.
Proof. unfold unlink. destruct (from i) as [a|]; [|intros [= <-]; apply alike_refl]. destruct (thread s a) as [t|]; [|discriminate]. destruct (existsb _ _); [|discriminate]. intros [= <-]. apply alike_change. reflexivity. Qed.
Lemma unlink_all_alike : forall l s s', unlink_all s l = Ok s' -> alike s s'.
Proof. induction l as [|m l IH]; intros s s' E; cbn [unlink_all] in E; [injection E as <-; apply alike_refl|]. apply andthen_ok in E as (s1 & E1 & E2). eapply alike_trans; [eapply unlink_alike; eauto|eauto]. Qed.

(** A thread that ends: others are as before. *)
Definition gone_or_new (a : nat) (s s' : st) : Prop := strings s = strings s' /\ ids s = ids s' /\
  exists t, thread s a = Some t /\
  map core (threads s') = if restart t then map (fun c => if Nat.eqb (tid c) a then fresh a (name c) true else c) (map core (threads s)) else filter (fun c => negb (Nat.eqb (tid c) a)) (map core (threads s)).
Lemma clear_queue_ok s a s' : clear_queue s a = Ok s' -> exists s1, alike s s1 /\ threads s' = threads (change s1 a (fun t => set_dest t [])) /\ strings s' = strings s1 /\ ids s' = ids s1.
Proof.
  unfold clear_queue. destruct (thread s a) as [t|]; [|discriminate].
  set (s1 := mkW _ _ _ _ _). set (s2 := change s1 a _). intros E. destruct (thread s2 a) as [t2|]; [|discriminate].
  apply andthen_ok in E as (s3 & E3 & E). apply andthen_ok in E as (s4 & E4 & E). injection E as <-. exists s4. split; [|repeat split].
  assert (A1 : alike s s1). { repeat split. unfold s1. cbn [threads]. rewrite map_map. apply map_ext. intros u. unfold core, set_dest. cbn. f_equal. rewrite map_map. apply map_ext. intros i. unfold orphan. destruct (existsb _ _); reflexivity. }
  assert (A2 : alike s1 s2) by (apply alike_change; reflexivity).
  eapply alike_trans; [exact A1|]. eapply alike_trans; [exact A2|]. eapply alike_trans; [eapply unlink_all_alike; eauto|]. apply quiet_alike. eapply clear_all_quiet; eauto.
Qed.
Lemma exits_ok s a s' : exits s a = Ok s' -> gone_or_new a s s'.
Proof.
  unfold exits. destruct (thread s a) as [t|] eqn:T; [|discriminate]. intros E. apply andthen_ok in E as (s1 & E1 & E). apply andthen_ok in E as (s2 & E2 & E).
  apply clear_all_quiet in E1. destruct (clear_queue_ok _ _ _ E2) as (s3 & A & B & C & D). pose proof (alike_trans _ _ _ (quiet_alike _ _ E1) A) as (X & Y & Z).
  destruct (restart t) eqn:R; injection E as <-; (split; [cbn [strings change]; congruence|]; split; [cbn [ids change]; congruence|]; exists t; split; [exact T|]; rewrite R).
  - unfold change. cbn [threads]. rewrite B. unfold change. cbn [threads]. rewrite X, !map_map. apply map_ext. intros u. cbn [core tid]. destruct (Nat.eqb (tid u) a) eqn:U; cbn [set_dest tid]; rewrite U; reflexivity.
  - cbn [threads]. rewrite B. unfold change. cbn [threads]. rewrite X. clear. induction (threads s3) as [|u l IH]; [reflexivity|]. cbn [map filter]. change (tid (core u)) with (tid u). destruct (Nat.eqb (tid u) a) eqn:U; cbn [tid set_dest]; rewrite U; cbn [negb map]; [exact IH|]. f_equal. exact IH.
Qed.
Lemma exits_other a s s' b : gone_or_new a s s' -> b <> a -> option_map core (thread s' b) = option_map core (thread s b).
Proof.
  intros (_ & _ & t & _ & E) N. rewrite !thread_core, E. generalize (map core (threads s)). intros l. destruct (restart t).
  - induction l as [|c l IH]; [reflexivity|]. cbn [map find]. destruct (Nat.eqb (tid c) a) eqn:A; cbn [tid fresh].
    + replace (Nat.eqb a b) with false by lia. replace (Nat.eqb (tid c) b) with false by lia. exact IH.
    + destruct (Nat.eqb (tid c) b); auto.
  - induction l as [|c l IH]; [reflexivity|]. cbn [filter find]. destruct (Nat.eqb (tid c) a) eqn:A; cbn [negb find].
    + replace (Nat.eqb (tid c) b) with false by lia. exact IH.
    + destruct (Nat.eqb (tid c) b); auto.
Qed.

(** ** What holds at all times *)
Definition stream (t : thr) : bytes := got t ++ left t ++ concat (map what (dest t)).
Definition good (strs cs : list bytes) (n m : bytes) : Prop := whole m /\ sent_to strs n m = true /\ exists k, In k cs /\ sent_by strs k m = true.
Definition fine (strs cs : list bytes) (t : thr) : Prop :=
  In (name t) cs /\ (armed t = false -> left t = [] /\ dest t = []) /\ exists M, stream t = concat M /\ Forall (good strs cs (name t)) M.
Definition inv (s : st) (cs : list bytes) : Prop :=
  NoDup (map tid (threads s)) /\ NoDup (map name (threads s)) /\ Forall (fun a => a < ids s)%nat (map tid (threads s)) /\ forall b t, thread s b = Some t -> fine (strings s) cs t.

Lemma stream_core t : stream (core t) = stream t.
Proof. unfold stream, core. cbn [got left dest]. rewrite map_map. reflexivity. Qed.
Lemma fine_core strs cs t : fine strs cs (core t) <-> fine strs cs t.
Proof. unfold fine. rewrite stream_core. cbn [core name armed left dest]. split; intros (A & B & C); (split; [exact A|split; [|exact C]]); intros H; destruct (B H) as [B1 B2]; split; auto; destruct (dest t); auto; discriminate. Qed.
Lemma core_eq s s' b t : option_map core (thread s' b) = option_map core (thread s b) -> thread s b = Some t -> exists t', thread s' b = Some t' /\ core t' = core t.
Proof. intros E T. rewrite T in E. cbn [option_map] in E. destruct (thread s' b) as [t'|]; cbn [option_map] in E; [|discriminate]. exists t'. split; [reflexivity|]. congruence. Qed.
Lemma good_app strs x cs y n m : good strs cs n m -> good (strs ++ x) (cs ++ y) n m.
Proof.
  intros (W & T & k & I & B). split; [exact W|]. unfold sent_to, sent_by in *. split.
  - rewrite is_name_app; [exact T|]. eapply is_name_known; eauto.
  - exists k. split; [apply in_or_app; auto|]. rewrite is_name_app; [exact B|]. eapply is_name_known; eauto.
Qed.
Lemma fine_app strs x cs y t : fine strs cs t -> fine (strs ++ x) (cs ++ y) t.
Proof. intros (A & B & M & C & D). split; [apply in_or_app; auto|]. split; [exact B|]. exists M. split; [exact C|]. eapply Forall_impl; [|exact D]. intros m. apply good_app. Qed.
Lemma NoDup_map_eq {A B} (f : A -> B) l x y : NoDup (map f l) -> In x l -> In y l -> f x = f y -> x = y.
Proof.
  induction l as [|z l IH]; intros D I J E; [destruct I|]. cbn [map] in D. inversion D as [|? ? D1 D2]; subst. destruct I as [-> |I], J as [-> |J]; auto.
  - exfalso. apply D1. rewrite E. now apply in_map.
  - exfalso. apply D1. rewrite <- E. now apply in_map.
Qed.
Lemma inv_alike s s' cs : alike s s' -> inv s cs -> inv s' cs.
Proof.
  intros A (D1 & D2 & D3 & F). pose proof A as (_ & A2 & A3). split; [|split; [|split]].
  - now rewrite <- (alike_tids _ _ A).
  - now rewrite <- (alike_names _ _ A).
  - now rewrite <- A3, <- (alike_tids _ _ A).
  - intros b t T. rewrite <- A2. destruct (core_eq s' s b t) as (t0 & T0 & C).
    + now apply alike_thread.
    + exact T.
    + apply fine_core. rewrite <- C. apply fine_core. eauto.
Qed.

Lemma route_ok s c m s' cs tc : inv s cs -> thread s c = Some tc -> whole m -> route s c m = Ok s' ->
  exists p, strings s' = strings s ++ [name tc] /\ inv s' cs /\ known (strings s') (number (firstn 8 m)) /\
    (forall n, sent_by (strings s') n (with_src m p) = same (name tc) n) /\ (forall b, thread s b = None -> thread s' b = None) /\
    forall b tb, thread s b = Some tb -> exists tb', thread s' b = Some tb' /\ name tb' = name tb /\ unread tb' = unread tb /\ rcv tb' = rcv tb /\
      got tb' = got tb /\ stream tb' = stream tb ++ (if sent_to (strings s') (name tb) m then with_src m p else []).
Proof.
  intros (D1 & D2 & D3 & F) T W E. unfold route in E. rewrite T in E. set (p := N.of_nat (length (strings s)) + 1) in *. destruct (2^64 <=? p) eqn:P; [discriminate|]. apply N.leb_gt in P.
  destruct (with_src_parts m p W) as (W' & W1 & W2 & W3). set (m' := with_src m p) in *. cbn [threads strings keys] in E.
  assert (B : forall strs n, strs = strings s ++ [name tc] -> sent_by strs n m' = same (name tc) n).
  { intros strs n ->. unfold sent_by. rewrite W2, number_get, get_put by exact P. rewrite is_name_text. unfold p. now rewrite text_new. }
  destruct (reads _ (dest_of m')) as [d|] eqn:R; [|discriminate]. unfold reads in R. cbn [freed strings] in R. destruct (existsb _ _); [discriminate|].
  unfold dest_of in R. rewrite W1, <- number_get in R.
  assert (TO : forall n, sent_to (strings s ++ [name tc]) n m = same d n). { intros n. unfold sent_to. now rewrite is_name_text, R. }
  assert (TO' : forall n, sent_to (strings s ++ [name tc]) n m' = same d n). { intros n. unfold sent_to. now rewrite is_name_text, W1, R. }
  exists p. fold m'. destruct (find (fun t => same (name t) d) (threads s)) as [u|] eqn:U.
  - apply find_some in U as [U1 U2]. apply same_ok in U2.
    set (s1 := mkW (threads s) (strings s ++ [name tc]) (keys s) (ids s) (freed s)) in *. set (f := fun t : thr => mkT (tid t) (name t) (restart t) (unread t) (rcv t) (local t ++ [keys s]) (dest t) (gone t) (left t) (got t) (armed t)) in *.
    set (g := fun t : thr => mkT (tid t) (name t) (restart t) (unread t) (rcv t) (local t) (dest t ++ [mkI (keys (change s1 c f)) (Some c) m']) (gone t) (left t) (got t) (match dest t with [] => true | _ => armed t end)) in *.
    set (s2 := change (change s1 c f) (tid u) g) in *. apply (f_equal (fun r => match r with Ok x => x | Fault _ => s end)) in E. cbv beta iota in E. subst s'. cbn [strings].
    assert (TH : forall b, thread (mkW (threads s2) (strings s2) (S (keys s2)) (ids s2) (freed s2)) b = match thread s b with Some t => Some (if Nat.eqb b (tid u) then g (if Nat.eqb b c then f t else t) else if Nat.eqb b c then f t else t) | None => None end).
    { intros b. change (thread (mkW (threads s2) (strings s2) (S (keys s2)) (ids s2) (freed s2)) b) with (thread s2 b). unfold s2. rewrite !thread_change by reflexivity. change (thread s1 b) with (thread s b). destruct (thread s b); reflexivity. }
    assert (ST : forall b tb, thread s b = Some tb -> stream (if Nat.eqb b (tid u) then g (if Nat.eqb b c then f tb else tb) else if Nat.eqb b c then f tb else tb) = stream tb ++ (if same d (name tb) then m' else [])).
    { intros b tb TB. destruct (thread_tid _ _ _ TB) as [TI IN]. assert (S0 : stream (if Nat.eqb b c then f tb else tb) = stream tb) by (destruct (Nat.eqb b c); reflexivity).
      assert (N0 : Nat.eqb b (tid u) = same d (name tb)).
      { destruct (same d (name tb)) eqn:Sd.
        - apply same_ok in Sd. assert (u = tb) as -> by (eapply (NoDup_map_eq name); eauto; congruence). lia.
        - apply Nat.eqb_neq. intros ->. assert (u = tb) as ->. { eapply (NoDup_map_eq tid); eauto. } rewrite U2 in Sd. assert (same d d = true) by (now apply same_ok). congruence. }
      rewrite N0. destruct (same d (name tb)); [|now rewrite S0, app_nil_r]. rewrite <- S0. generalize (if Nat.eqb b c then f tb else tb). intros x. unfold stream, g. cbn [got left dest].
      rewrite map_app, concat_app. cbn [map what concat]. now rewrite app_nil_r, !app_assoc. }
    change (strings s2) with (strings s ++ [name tc]).
    assert (NM : forall b t, name (if Nat.eqb b (tid u) then g (if Nat.eqb b c then f t else t) else if Nat.eqb b c then f t else t) = name t). { intros b t. cbv zeta. destruct (Nat.eqb b c), (Nat.eqb b (tid u)); reflexivity. }
    assert (CT : In (name tc) cs) by (exact (proj1 (F _ _ T))).
    repeat split.
    + cbn [threads]. unfold s2. rewrite !change_tids by reflexivity. exact D1.
    + cbn [threads]. unfold s2, change. cbn [threads]. rewrite !map_map. rewrite (map_ext _ name); [exact D2|]. intros t. destruct (Nat.eqb (tid t) c); cbn [f tid]; destruct (Nat.eqb (tid t) (tid u)); reflexivity.
    + cbn [threads ids]. unfold s2. rewrite !change_tids by reflexivity. exact D3.
    + cbn [strings]. change (strings s2) with (strings s ++ [name tc]). revert H. rewrite TH. destruct (thread s b) as [tb|] eqn:TB; [|discriminate]. intros [= <-]. rewrite NM. rewrite <- (app_nil_r cs). exact (proj1 (fine_app _ [name tc] _ [] _ (F _ _ TB))).
    + rewrite TH in H. destruct (thread s b) as [tb|] eqn:TB; [|discriminate]. injection H as <-. destruct (F _ _ TB) as (_ & A & _). revert H0. cbv zeta. destruct (Nat.eqb b c), (Nat.eqb b (tid u)); cbn [f g armed left dest]; intros H0; try (destruct (dest tb); [discriminate|]); apply A in H0; try (destruct H0 as [_ H0]; discriminate); apply H0.
    + rewrite TH in H. destruct (thread s b) as [tb|] eqn:TB; [|discriminate]. injection H as <-. destruct (F _ _ TB) as (_ & A & _). revert H0. cbv zeta. destruct (Nat.eqb b c), (Nat.eqb b (tid u)); cbn [f g armed left dest]; intros H0; try (destruct (dest tb); [discriminate|]); apply A in H0; try (destruct H0 as [_ H0]; discriminate); apply H0.
    + cbn [strings]. change (strings s2) with (strings s ++ [name tc]). rewrite TH in H. destruct (thread s b) as [tb|] eqn:TB; [|discriminate]. injection H as <-. rewrite NM, (ST _ _ TB). destruct (F _ _ TB) as (_ & _ & M & M1 & M2). exists (M ++ (if same d (name tb) then [m'] else [])). split.
      * rewrite concat_app, M1. destruct (same d (name tb)); cbn [concat]; now rewrite ?app_nil_r.
      * apply Forall_app. split; [eapply Forall_impl; [|exact M2]; intros x X; rewrite <- (app_nil_r cs); now apply good_app|]. destruct (same d (name tb)) eqn:Sd; [|constructor]. constructor; [|constructor].
        split; [exact W'|]. split; [now rewrite TO'|]. exists (name tc). split; [exact CT|]. rewrite (B _ (name tc) eq_refl). now apply same_ok.
    + unfold known. rewrite R. discriminate.
    + intros n. now apply B.
    + intros b H. now rewrite TH, H.
    + intros b tb TB. rewrite TH, TB. eexists. split; [reflexivity|]. rewrite NM, (ST _ _ TB), TO. repeat split; cbv zeta; destruct (Nat.eqb b c), (Nat.eqb b (tid u)); reflexivity.
  - apply clear_msg_quiet in E as (Q1 & Q2 & Q3 & _). cbn [threads strings ids] in Q1, Q2, Q3. pose proof (find_none _ _ U) as NO. cbn beta in NO.
    assert (TH : forall b, thread s' b = thread s b) by (intros b; unfold thread; now rewrite Q1). rewrite <- Q2.
    repeat split.
    + now rewrite <- Q1.
    + now rewrite <- Q1.
    + now rewrite <- Q1, <- Q3.
    + rewrite TH in H. exact (proj1 (F _ _ H)).
    + rewrite TH in H. now apply (F _ _ H).
    + rewrite TH in H. now apply (F _ _ H).
    + rewrite TH in H. rewrite <- Q2, <- (app_nil_r cs). apply (fine_app _ _ _ [] _ (F _ _ H)).
    + unfold known. rewrite R. discriminate.
    + intros n. now apply B.
    + intros b H. now rewrite TH.
    + intros b tb TB. rewrite TH. exists tb. repeat split; auto. rewrite TO. destruct (thread_tid _ _ _ TB) as [_ IN]. pose proof (NO _ IN) as X.
      destruct (same d (name tb)) eqn:Sd; [|now rewrite app_nil_r]. apply same_ok in Sd. subst d. assert (same (name tb) (name tb) = true) by (now apply same_ok). congruence.
Qed.

(** ** Reading messages *)
Definition held (c : list (bytes * bytes)) : bytes := concat (map snd c).
Lemma enough_ok len : forall c h, (h < len)%nat -> enough h len c = Nat.leb len (h + length (held c)).
Proof.
  induction c as [|[d l] c IH]; intros h H; unfold held; cbn [enough map snd concat length].
  - symmetry. apply Nat.leb_gt. lia.
  - rewrite app_length. destruct (Nat.leb len (h + length l)) eqn:E; [symmetry; apply Nat.leb_le; apply Nat.leb_le in E; lia|]. apply Nat.leb_gt in E. rewrite IH by lia. unfold held. f_equal. lia.
Qed.
Lemma takes_ok : forall c len, (0 < len <= length (held c))%nat -> exists c', takes len c = (firstn len (held c), c') /\ held c' = skipn len (held c).
Proof.
  induction c as [|[d l] c IH]; intros len H; unfold held in *; cbn [map snd concat length] in H |- *; [lia|]. rewrite app_length in H. cbn [takes]. rewrite firstn_app, skipn_app.
  destruct (Nat.ltb len (length l)) eqn:E.
  - apply Nat.ltb_lt in E. replace (len - length l)%nat with 0%nat by lia. rewrite firstn_O, app_nil_r. eexists. split; [reflexivity|]. reflexivity.
  - apply Nat.ltb_ge in E. rewrite (firstn_all2 l), (skipn_all2 l) by lia. destruct (Nat.eqb (len - length l) 0) eqn:Z.
    + apply Nat.eqb_eq in Z. rewrite Z, firstn_O, app_nil_r. exists c. auto.
    + apply Nat.eqb_neq in Z. destruct (IH (len - length l)%nat ltac:(lia)) as (c' & -> & P). exists c'. auto.
Qed.
Lemma get_buf_ok c : match get_buf c size with None => (length (held c) < 72)%nat | Some (m, c') => whole m /\ held c = m ++ held c' end.
Proof.
  unfold get_buf. rewrite enough_ok by (unfold size; lia). unfold size. destruct (Nat.leb 72 (0 + length (held c))) eqn:E.
  - apply Nat.leb_le in E. destruct (takes_ok c 72%nat ltac:(lia)) as (c' & -> & P). rewrite P. split; [unfold whole; rewrite firstn_length; lia|]. symmetry. apply firstn_skipn.
  - apply Nat.leb_gt in E. lia.
Qed.

(** What thread [a] wrote, and what is on its way to thread [b], or there. *)
Definition rel (s : st) (b : nat) (na nb : bytes) (R : list bytes) : Prop :=
  exists tb M, thread s b = Some tb /\ name tb = nb /\ stream tb = concat M /\ Forall (fun m => whole m /\ known (strings s) (number (firstn 8 (skipn 8 m)))) M /\
    Forall (fun m => whole m /\ known (strings s) (number (firstn 8 m))) R /\ map body (filter (sent_to (strings s) nb) R) = map body (filter (sent_by (strings s) na) M).
Definition fifo (s : st) (a b : nat) (na nb W : bytes) : Prop :=
  exists ta R, thread s a = Some ta /\ name ta = na /\ W = concat R ++ held (rcv ta) ++ unread ta /\ rel s b na nb R.
Lemma known_app strs x p : known strs p -> known (strs ++ x) p.
Proof. unfold known. intros K H. destruct (text strs p) eqn:E; [|congruence]. rewrite (text_app _ x _ _ E) in H. discriminate. Qed.
Lemma filter_eq {A} (f g : A -> bool) l : Forall (fun x => f x = g x) l -> filter f l = filter g l.
Proof. induction 1 as [|x l H _ IH]; [reflexivity|]. cbn [filter]. now rewrite H, IH. Qed.
Lemma rel_strings s x b na nb R s' : strings s' = strings s ++ x -> rel s b na nb R -> (forall tb, thread s b = Some tb -> exists tb', thread s' b = Some tb' /\ name tb' = name tb /\ stream tb' = stream tb) -> rel s' b na nb R.
Proof.
  intros S (tb & M & T & N & C & F & G & E) K. destruct (K _ T) as (tb' & T' & N' & C'). exists tb', M. rewrite S. split; [exact T'|]. split; [congruence|]. split; [congruence|]. split; [|split].
  - eapply Forall_impl; [|exact F]. intros m (W & K0). split; [exact W|now apply known_app].
  - eapply Forall_impl; [|exact G]. intros m (W & K0). split; [exact W|now apply known_app].
  - rewrite (filter_eq _ (sent_to (strings s) nb)), (filter_eq (sent_by _ na) (sent_by (strings s) na)); [exact E| |]; (eapply Forall_impl; [|eassumption]); intros m (W & K0); unfold sent_to, sent_by; now apply is_name_app.
Qed.
Lemma rel_route s c m s' cs tc b na nb R : inv s cs -> thread s c = Some tc -> whole m -> route s c m = Ok s' -> rel s b na nb R -> rel s' b na nb (if same (name tc) na then R ++ [m] else R).
Proof.
  intros I T W E (tb & M & TB & N & C & F & G & Q). destruct (route_ok _ _ _ _ _ _ I T W E) as (p & S & _ & K & B & _ & X). destruct (X _ _ TB) as (tb' & TB' & N' & _ & _ & _ & C'). clear X.
  destruct (with_src_parts m p W) as (W' & W1 & W2 & W3). rewrite C, N in C'.
  assert (KN : known (strings s') (number (firstn 8 (skipn 8 (with_src m p))))). { apply (is_name_known _ _ (name tc)). fold (sent_by (strings s') (name tc) (with_src m p)). rewrite B. now apply same_ok. }
  exists tb', (M ++ if sent_to (strings s') nb m then [with_src m p] else []). split; [exact TB'|]. split; [congruence|].
  assert (F' : Forall (fun m => whole m /\ known (strings s') (number (firstn 8 (skipn 8 m)))) M). { eapply Forall_impl; [|exact F]. intros x (X1 & X2). split; [exact X1|]. rewrite S. now apply known_app. }
  assert (G' : Forall (fun m => whole m /\ known (strings s') (number (firstn 8 m))) R). { eapply Forall_impl; [|exact G]. intros x (X1 & X2). split; [exact X1|]. rewrite S. now apply known_app. }
  assert (Q' : map body (filter (sent_to (strings s') nb) R) = map body (filter (sent_by (strings s') na) M)).
  { rewrite (filter_eq _ (sent_to (strings s) nb)), (filter_eq (sent_by _ na) (sent_by (strings s) na)); [exact Q|eapply Forall_impl; [|exact F]|eapply Forall_impl; [|exact G]]; intros x (_ & K0); unfold sent_to, sent_by; rewrite S; now apply is_name_app. }
  split; [|split; [|split]].
  - rewrite C', concat_app. destruct (sent_to _ nb m); cbn [concat]; now rewrite ?app_nil_r.
  - apply Forall_app. split; [exact F'|]. destruct (sent_to _ nb m); [|constructor]. constructor; [|constructor]. auto.
  - destruct (same _ _); [|exact G']. apply Forall_app. split; [exact G'|]. constructor; [auto|constructor].
  - destruct (same (name tc) na) eqn:Sm; rewrite (filter_app (sent_by _ _)), map_app; unfold bytes in *; rewrite <- Q'.
    + rewrite filter_app, map_app. f_equal. cbn [filter]. destruct (sent_to (strings s') nb m); [|reflexivity]. cbn [filter]. rewrite B, Sm. cbn [map]. now rewrite W3.
    + destruct (sent_to (strings s') nb m); cbn [filter]; rewrite ?B, ?Sm; cbn [map]; now rewrite app_nil_r.
Qed.
Definition same_way (s s' : st) (d : nat) : Prop := forall td, thread s d = Some td ->
  exists td', thread s' d = Some td' /\ name td' = name td /\ stream td' = stream td /\ held (rcv td') ++ unread td' = held (rcv td) ++ unread td.
Lemma fifo_keep s s' x a b na nb W : strings s' = strings s ++ x -> same_way s s' a -> same_way s s' b -> fifo s a b na nb W -> fifo s' a b na nb W.
Proof.
  intros S A B (ta & R & T & N & E & Q). destruct (A _ T) as (ta' & T' & N' & _ & H). exists ta', R. split; [exact T'|]. split; [congruence|]. split; [rewrite H; exact E|].
  eapply rel_strings; eauto. intros tb TB. destruct (B _ TB) as (tb' & X1 & X2 & X3 & _). eauto.
Qed.
Lemma inv_change s a f cs : inv s cs -> (forall t, tid (f t) = tid t /\ name (f t) = name t) -> (forall t, thread s a = Some t -> fine (strings s) cs (f t)) -> inv (change s a f) cs.
Proof.
  intros (D1 & D2 & D3 & F) K G. split; [|split; [|split]].
  - rewrite change_tids by apply K. exact D1.
  - unfold change. cbn [threads]. rewrite map_map. rewrite (map_ext _ name); [exact D2|]. intros t. destruct (Nat.eqb (tid t) a); [apply K|reflexivity].
  - rewrite change_tids by apply K. exact D3.
  - intros b t. rewrite thread_change by apply K. destruct (thread s b) as [tb|] eqn:TB; [|discriminate]. intros [= <-]. cbn [strings change]. destruct (Nat.eqb b a) eqn:E; [|eauto]. apply Nat.eqb_eq in E. subst. eauto.
Qed.
Lemma same_way_refl s d : same_way s s d.
Proof. intros td T. exists td. auto. Qed.

Definition short (t : thr) : Prop := (length (held (rcv t)) < 72)%nat.
Lemma process_ok : forall fuel s c s' cs, inv s cs -> process fuel s c = Ok s' ->
  inv s' cs /\ (exists x, strings s' = strings s ++ x) /\ (forall a b na nb W, fifo s a b na nb W -> fifo s' a b na nb W) /\
  (forall t, thread s' c = Some t -> short t) /\
  (forall d, thread s d = None -> thread s' d = None) /\ (forall d td, thread s d = Some td -> exists td', thread s' d = Some td' /\ name td' = name td /\ unread td' = unread td /\ got td' = got td /\ (d <> c -> rcv td' = rcv td)).
Proof.
  induction fuel as [|fuel IH]; intros s c s' cs I E; cbn [process] in E; [discriminate|]. destruct (thread s c) as [tc|] eqn:T; [|discriminate].
  pose proof (get_buf_ok (rcv tc)) as G. destruct (get_buf (rcv tc) size) as [[m c1]|].
  - destruct G as [Wm Hc]. apply andthen_ok in E as (s1 & E1 & E2). set (f := fun t : thr => set_rcv t c1 (unread t)) in *.
    assert (I0 : inv (change s c f) cs). { apply inv_change; [exact I|auto|]. intros t Tt. exact (proj2 (proj2 (proj2 I)) _ _ Tt). }
    assert (T0 : thread (change s c f) c = Some (f tc)). { rewrite thread_change by reflexivity. rewrite T, Nat.eqb_refl. reflexivity. }
    destruct (route_ok _ _ _ _ _ _ I0 T0 Wm E1) as (p & S1 & I1 & K1 & B1 & N1 & X1).
    destruct (IH _ _ _ _ I1 E2) as (I2 & (x & S2) & F2 & C2 & N2 & X2). split; [exact I2|]. split; [exists ([name tc] ++ x); rewrite S2, S1; cbn [strings change name f set_rcv]; now rewrite app_assoc|]. split; [|split; [exact C2|split]].
    + intros a b na nb W (ta & R & TA & NA & EW & RL). apply F2.
      assert (RL0 : rel (change s c f) b na nb R). { eapply (rel_strings s []); [cbn [strings change]; now rewrite app_nil_r|exact RL|]. intros tb TB. rewrite thread_change, TB by reflexivity. eexists. split; [reflexivity|]. destruct (Nat.eqb b c); auto. }
      pose proof (rel_route _ _ _ _ _ _ _ _ _ _ I0 T0 Wm E1 RL0) as RL1. cbn [name f set_rcv] in RL1.
      assert (TA0 : thread (change s c f) a = Some (if Nat.eqb a c then f ta else ta)) by (rewrite thread_change, TA by reflexivity; reflexivity).
      destruct (X1 _ _ TA0) as (ta' & TA' & NA' & UA' & RA' & _). exists ta', (if same (name tc) na then R ++ [m] else R). split; [exact TA'|]. split; [rewrite NA', <- NA; destruct (Nat.eqb a c); reflexivity|]. split; [|exact RL1].
      rewrite EW, UA', RA'. destruct (Nat.eqb a c) eqn:AC.
      * apply Nat.eqb_eq in AC. subst c. assert (ta = tc) as -> by congruence. replace (same (name tc) na) with true by (symmetry; apply same_ok; exact NA). cbn [f set_rcv rcv unread]. rewrite Hc, concat_app. cbn [concat]. rewrite app_nil_r, <- !app_assoc. reflexivity.
      * replace (same (name tc) na) with false; [reflexivity|]. symmetry. destruct (same (name tc) na) eqn:Sm; [|reflexivity]. exfalso. apply same_ok in Sm. apply Nat.eqb_neq in AC. apply AC.
        destruct (thread_tid _ _ _ T) as [I3 I4]. destruct (thread_tid _ _ _ TA) as [I5 I6]. assert (tc = ta) as -> by (eapply (NoDup_map_eq name); [exact (proj1 (proj2 I))|auto|auto|congruence]). congruence.
    + intros d D. apply N2, N1. now rewrite thread_change, D by reflexivity.
    + intros d td TD. assert (TD0 : thread (change s c f) d = Some (if Nat.eqb d c then f td else td)) by (rewrite thread_change, TD by reflexivity; reflexivity).
      destruct (X1 _ _ TD0) as (t1 & Y1 & Y2 & Y3 & Y4 & Y5 & _). destruct (X2 _ _ Y1) as (t2 & Z1 & Z2 & Z3 & Z4 & Z5). exists t2. split; [exact Z1|]. rewrite Z2, Z3, Z4, Y2, Y3, Y5. destruct (Nat.eqb d c) eqn:DC.
      * repeat split. intros H. apply Nat.eqb_eq in DC. congruence.
      * repeat split. intros H. rewrite Z5 by exact H. exact Y4.
  - injection E as <-. split; [exact I|]. split; [exists []; now rewrite app_nil_r|]. split; [auto|]. split; [|split; [auto|]].
    + intros t Tt. assert (t = tc) as -> by congruence. exact G.
    + intros d td TD. exists td. auto.
Qed.

Lemma pieces_ok : forall ks l c r, pieces ks l = (c, r) -> held c ++ r = l.
Proof.
  induction ks as [|k ks IH]; intros l c r E; cbn [pieces] in E; [injection E as <- <-; reflexivity|]. destruct l as [|y l]; [injection E as <- <-; reflexivity|].
  set (n := Nat.min (Nat.max 1 k) 1024) in *. destruct (pieces ks (skipn n (y :: l))) as [c0 r0] eqn:P. injection E as <- <-. apply IH in P. unfold held in *. cbn [map snd concat]. rewrite <- app_assoc, P. apply firstn_skipn.
Qed.
Lemma held_app c d : held (c ++ d) = held c ++ held d.
Proof. unfold held. now rewrite map_app, concat_app. Qed.

Definition inv1 (s : st) (cs : list bytes) : Prop := inv s cs /\ forall b t, thread s b = Some t -> short t.
Lemma fine_fresh strs cs a n r : In n cs -> fine strs cs (fresh a n r).
Proof. intros H. split; [exact H|]. split; [auto|]. exists []. split; [reflexivity|constructor]. Qed.
Lemma exits_inv s c s' cs : inv s cs -> (forall b t, b <> c -> thread s b = Some t -> short t) -> gone_or_new c s s' -> inv1 s' cs.
Proof.
  intros (D1 & D2 & D3 & F) H G. pose proof G as (S & J & tc & T & E). destruct (thread_tid _ _ _ T) as [TI IN].
  assert (CO : forall b, b <> c -> option_map core (thread s' b) = option_map core (thread s b)) by (intros b; now apply exits_other).
  assert (TD : map tid (threads s') = if restart tc then map tid (threads s) else filter (fun x => negb (Nat.eqb x c)) (map tid (threads s))).
  { apply (f_equal (map tid)) in E. rewrite map_map in E. change (map (fun x => tid (core x)) (threads s')) with (map tid (threads s')) in E. rewrite E. destruct (restart tc).
    - rewrite !map_map. apply map_ext. intros t. cbn [core tid]. destruct (Nat.eqb (tid t) c) eqn:X; [cbn; lia|reflexivity].
    - clear. induction (threads s) as [|t l IH]; [reflexivity|]. cbn [map filter core tid]. destruct (Nat.eqb (tid t) c); cbn [negb map]; [exact IH|]. cbn [tid]. f_equal. exact IH. }
  assert (TN : NoDup (map name (threads s')) /\ forall t, In t (threads s') -> tid t = c -> core t = fresh c (name tc) true).
  { split.
    - apply (f_equal (map name)) in E. rewrite map_map in E. change (map (fun x => name (core x)) (threads s')) with (map name (threads s')) in E. rewrite E. destruct (restart tc).
      + rewrite !map_map. rewrite (map_ext _ name); [exact D2|]. intros t. cbn [core tid name]. destruct (Nat.eqb (tid t) c); reflexivity.
      + revert D2. clear. induction (threads s) as [|t l IH]; intros D; [constructor|]. cbn [map filter core tid]. cbn [map] in D. inversion D as [|? ? X Y]; subst. destruct (Nat.eqb (tid t) c); cbn [negb map]; [auto|]. cbn [name]. constructor; [|auto].
        intros Z. apply X. apply in_map_iff in Z as (z & Z1 & Z2). apply filter_In in Z2 as [Z2 _]. apply in_map_iff in Z2 as (w & <- & W2). apply in_map_iff. exists w. auto.
    - intros t I0 T0. assert (I1 : In (core t) (map core (threads s'))) by (now apply in_map). rewrite E in I1. destruct (restart tc).
      + apply in_map_iff in I1 as (u & U1 & U2). apply in_map_iff in U2 as (v & <- & V2). cbn [core tid name] in U1. destruct (Nat.eqb (tid v) c) eqn:VC.
        * apply Nat.eqb_eq in VC. assert (v = tc) as -> by (eapply (NoDup_map_eq tid); eauto; congruence). now symmetry.
        * exfalso. apply Nat.eqb_neq in VC. apply VC. apply (f_equal tid) in U1. cbn [core tid] in U1. congruence.
      + apply filter_In in I1 as [_ I1]. cbn [core tid] in I1. rewrite T0, Nat.eqb_refl in I1. discriminate. }
  destruct TN as [TN1 TN2]. split; [split; [|split; [|split]]|].
  - rewrite TD. destruct (restart tc); [exact D1|]. now apply NoDup_filter.
  - exact TN1.
  - rewrite <- J, TD. destruct (restart tc); [exact D3|]. apply Forall_forall. intros x X. apply filter_In in X as [X _]. rewrite Forall_forall in D3. auto.
  - intros b t TB. rewrite <- S. destruct (Nat.eq_dec b c) as [-> |NB].
    + destruct (thread_tid _ _ _ TB) as [X Y]. apply fine_core. rewrite (TN2 _ Y X). apply fine_fresh. exact (proj1 (F _ _ T)).
    + destruct (core_eq s' s b t (eq_sym (CO b NB)) TB) as (t0 & T0 & C0). apply fine_core. rewrite <- C0. apply fine_core. eauto.
  - intros b t TB. destruct (Nat.eq_dec b c) as [-> |NB].
    + destruct (thread_tid _ _ _ TB) as [X Y]. unfold short. change (rcv t) with (rcv (core t)). rewrite (TN2 _ Y X). cbn. lia.
    + destruct (core_eq s' s b t (eq_sym (CO b NB)) TB) as (t0 & T0 & C0). unfold short. change (rcv t) with (rcv (core t)). rewrite <- C0. exact (H _ _ NB T0).
Qed.
Lemma exits_same_way s c s' d : gone_or_new c s s' -> d <> c -> same_way s s' d.
Proof.
  intros G N td T. destruct (core_eq s s' d td (exits_other _ _ _ _ G N) T) as (td' & T' & C). exists td'. split; [exact T'|]. rewrite <- (stream_core td'), <- (stream_core td), C.
  change (name td') with (name (core td')). change (name td) with (name (core td)). change (rcv td') with (rcv (core td')). change (rcv td) with (rcv (core td)). change (unread td') with (unread (core td')). change (unread td) with (unread (core td)). rewrite C. auto.
Qed.
Lemma alike_same_way s s' d : alike s s' -> same_way s s' d.
Proof.
  intros A td T. destruct (core_eq s s' d td (eq_sym (alike_thread _ _ _ A)) T) as (td' & T' & C). exists td'. split; [exact T'|]. rewrite <- (stream_core td'), <- (stream_core td), C.
  change (name td') with (name (core td')). change (name td) with (name (core td)). change (rcv td') with (rcv (core td')). change (rcv td) with (rcv (core td)). change (unread td') with (unread (core td')). change (unread td) with (unread (core td)). rewrite C. auto.
Qed.
Lemma alike_short s s' : alike s s' -> (forall b t, thread s b = Some t -> short t) -> forall b t, thread s' b = Some t -> short t.
Proof. intros A H b t T. destruct (core_eq s' s b t (alike_thread _ _ _ A) T) as (t0 & T0 & C). unfold short. change (rcv t) with (rcv (core t)). rewrite <- C. exact (H _ _ T0). Qed.

(** ** Writing messages *)
Lemma push_ok : forall ws l w l' ws' e, push ws l = (w, l', ws', e) -> w ++ l' = l /\ (e = None -> l' = []) /\ (e = Some Breaks -> In Broke ws) /\ (In Broke ws' -> In Broke ws).
Proof.
  induction ws as [|x ws IH]; intros l w l' ws' e E; destruct l as [|y l]; cbn [push] in E.
  - injection E as <- <- <- <-. repeat split; auto; discriminate.
  - injection E as <- <- <- <-. repeat split; auto; discriminate.
  - injection E as <- <- <- <-. repeat split; auto; discriminate.
  - destruct x as [n|].
    + set (k := Nat.min (Nat.max 1 n) (length (y :: l))) in *. destruct (push ws (skipn k (y :: l))) as [[[w0 l0] ws0] e0] eqn:P. injection E as <- <- <- <-. destruct (IH _ _ _ _ _ P) as (A & B & C & D).
      rewrite <- app_assoc, A, firstn_skipn. repeat split; auto; intros H; right; auto.
    + injection E as <- <- <- <-. repeat split; try discriminate; intros; now left.
Qed.
Lemma pump_ok : forall q ws g l, let r := pump ws g l q in
  written r ++ pleft r ++ concat (map what (rest r)) = l ++ concat (map what q) /\ (ends r = None -> pleft r = [] /\ rest r = []) /\ (ends r = Some Breaks -> In Broke ws) /\ off r ++ rest r = q.
Proof.
  induction q as [|i q IH]; intros ws g l; cbn [pump]; destruct (push ws l) as [[[w l'] ws'] e] eqn:P; destruct (push_ok _ _ _ _ _ _ P) as (A & B & C & D); destruct e as [e|]; cbn [written pleft rest ends off].
  - rewrite <- A. repeat split; rewrite ?app_assoc; auto; discriminate.
  - rewrite (B eq_refl) in A. rewrite app_nil_r in A. subst w. repeat split; auto; discriminate.
  - rewrite <- A. repeat split; rewrite ?app_assoc; auto; discriminate.
  - rewrite (B eq_refl) in A. rewrite app_nil_r in A. subst w. destruct (IH ws' [] (what i)) as (X & Y & Z & V). cbn [map concat]. repeat split; auto.
    + now rewrite <- X, <- app_assoc.
    + now apply Y.
    + now apply Y.
    + cbn [app]. now rewrite V.
Qed.
Lemma send_ok s b ws s' cs : inv1 s cs -> send s b ws = Ok s' -> inv1 s' cs /\ strings s' = strings s /\ forall d, (d = b -> ~ In Broke ws) -> same_way s s' d.
Proof.
  intros [I H] E. unfold send in E. destruct (thread s b) as [t|] eqn:T; [|injection E as <-; split; [exact (conj I H)|]; split; [reflexivity|]; intros; apply same_way_refl]. destruct (armed t) eqn:AR; [|injection E as <-; split; [exact (conj I H)|]; split; [reflexivity|]; intros; apply same_way_refl].
  pose proof (pump_ok (dest t) ws (gone t) (left t)) as P. set (r := pump ws (gone t) (left t) (dest t)) in *. cbv zeta in P. destruct P as (P1 & P2 & P3 & P4).
  set (f := fun u : thr => mkT (tid u) (name u) (restart u) (unread u) (rcv u) (local u) (rest r) (pgone r) (pleft r) (got u ++ written r) (match ends r with None => false | _ => true end)) in *.
  assert (ST : stream (f t) = stream t). { unfold stream, f. cbn [got left dest]. rewrite <- app_assoc, P1. reflexivity. }
  assert (I1 : inv (change s b f) cs).
  { apply inv_change; [exact I|auto|]. intros u U. assert (u = t) as -> by congruence. destruct (proj2 (proj2 (proj2 I)) _ _ T) as (A & B & M & C & D). split; [exact A|]. split; [|exists M; rewrite ST; auto]. cbn [f armed left dest]. destruct (ends r); [discriminate|]. intros _. now apply P2. }
  assert (TH : forall d, thread (change s b f) d = match thread s d with Some u => Some (if Nat.eqb d b then f u else u) | None => None end) by (intros d; now apply thread_change).
  assert (W1 : forall d, same_way s (change s b f) d).
  { intros d td TD. rewrite TH, TD. eexists. split; [reflexivity|]. destruct (Nat.eqb d b) eqn:DB; [|auto]. apply Nat.eqb_eq in DB. subst d. assert (td = t) as -> by congruence. rewrite ST. auto. }
  assert (H1 : forall d u, thread (change s b f) d = Some u -> short u). { intros d u. rewrite TH. destruct (thread s d) as [v|] eqn:V; [|discriminate]. intros [= <-]. pose proof (H _ _ V). destruct (Nat.eqb d b); auto. }
  apply andthen_ok in E as (s2 & E2 & E3). apply unlink_all_alike in E2. pose proof (inv_alike _ _ _ E2 I1) as I2. pose proof (alike_short _ _ E2 H1) as H2.
  assert (W2 : forall d, same_way s s2 d). { intros d td TD. destruct (W1 d td TD) as (u & U1 & U2 & U3 & U4). destruct (alike_same_way _ _ d E2 u U1) as (v & V1 & V2 & V3 & V4). exists v. repeat split; congruence. }
  assert (S2 : strings s2 = strings s) by (destruct E2 as (_ & <- & _); reflexivity).
  destruct (ends r) as [[]|] eqn:ER.
  - injection E3 as <-. split; [exact (conj I2 H2)|]. split; [exact S2|]. intros; apply W2.
  - apply exits_ok in E3. split; [|split].
    + eapply exits_inv; eauto.
    + destruct E3 as (<- & _). exact S2.
    + intros d D td TD. destruct (W2 d td TD) as (u & U1 & U2 & U3 & U4). assert (d <> b) as N by (intros ->; apply (D eq_refl); auto). destruct (exits_same_way _ _ _ d E3 N u U1) as (v & V1 & V2 & V3 & V4). exists v. repeat split; congruence.
  - injection E3 as <-. split; [exact (conj I2 H2)|]. split; [exact S2|]. intros; apply W2.
Qed.
Lemma receive_ok s c ks e s' cs : inv1 s cs -> receive s c ks e = Ok s' -> inv1 s' cs /\ (exists x, strings s' = strings s ++ x) /\
  forall a b na nb W, (c = a \/ c = b -> e = Later) -> fifo s a b na nb W -> fifo s' a b na nb W.
Proof.
  intros [I H] E. unfold receive in E. destruct (thread s c) as [t|] eqn:T; [|injection E as <-; split; [split; auto|]; split; [exists []; now rewrite app_nil_r|auto]].
  destruct (pieces ks (unread t)) as [c1 l] eqn:P. apply pieces_ok in P. set (f := fun u : thr => set_rcv u (rcv u ++ c1) l) in *.
  assert (I1 : inv (change s c f) cs). { apply inv_change; [exact I|auto|]. intros u U. exact (proj2 (proj2 (proj2 I)) _ _ U). }
  assert (TH : forall d, thread (change s c f) d = match thread s d with Some u => Some (if Nat.eqb d c then f u else u) | None => None end) by (intros d; now apply thread_change).
  assert (W1 : forall d, same_way s (change s c f) d).
  { intros d td TD. rewrite TH, TD. eexists. split; [reflexivity|]. destruct (Nat.eqb d c) eqn:DC; [|auto]. apply Nat.eqb_eq in DC. subst d. assert (td = t) as -> by congruence. split; [reflexivity|]. split; [reflexivity|]. cbn [f set_rcv rcv unread]. rewrite held_app, <- app_assoc, P. reflexivity. }
  assert (H1 : forall d u, d <> c -> thread (change s c f) d = Some u -> short u). { intros d u N. rewrite TH. destruct (thread s d) as [v|] eqn:V; [|discriminate]. intros [= <-]. replace (Nat.eqb d c) with false by lia. eauto. }
  assert (F1 : forall a b na nb W, fifo s a b na nb W -> fifo (change s c f) a b na nb W). { intros a b na nb W. apply (fifo_keep s (change s c f) []); auto. cbn [strings change]. now rewrite app_nil_r. }
  assert (X : exits (change s c f) c = Ok s' -> e <> Later -> inv1 s' cs /\ (exists x, strings s' = strings s ++ x) /\ forall a b na nb W, (c = a \/ c = b -> e = Later) -> fifo s a b na nb W -> fifo s' a b na nb W).
  { intros X NL. apply exits_ok in X. split; [eapply exits_inv; eauto|]. split; [exists []; destruct X as (<- & _); now rewrite app_nil_r|]. intros a b na nb W AB FF. eapply (fifo_keep (change s c f) s' []); [destruct X as (<- & _); now rewrite app_nil_r| | |now apply F1]; eapply exits_same_way; eauto. }
  assert (Y : forall fuel, process fuel (change s c f) c = Ok s' -> inv1 s' cs /\ (exists x, strings s' = strings s ++ x) /\ forall a b na nb W, (c = a \/ c = b -> e = Later) -> fifo s a b na nb W -> fifo s' a b na nb W).
  { intros fuel Y. destruct (process_ok _ _ _ _ _ I1 Y) as (A1 & A2 & A3 & A4 & A5 & A6). split; [split; [exact A1|]|split; [exact A2|auto]].
    intros d u U. destruct (Nat.eq_dec d c) as [-> |N]; [eauto|]. destruct (thread (change s c f) d) as [v|] eqn:V; [|rewrite A5 in U by exact V; discriminate].
    destruct (A6 _ _ V) as (u' & U' & _ & _ & _ & R). assert (u' = u) as -> by congruence. unfold short. rewrite R by exact N. exact (H1 _ _ N V). }
  destruct e; [|destruct l as [|y l]|].
  - eapply Y; exact E.
  - apply X; [exact E|discriminate].
  - eapply Y; exact E.
  - apply X; [exact E|discriminate].
Qed.

Lemma thread_create s n r d : thread (create s n r) d = match thread s d with Some t => Some t | None => if Nat.eqb (ids s) d then Some (fresh (ids s) n r) else None end.
Proof. unfold thread, create. cbn [threads]. induction (threads s) as [|t l IH]; cbn [app find]; [reflexivity|]. destruct (Nat.eqb (tid t) d); auto. Qed.
Lemma NoDup_snoc {A} (l : list A) x : NoDup l -> ~ In x l -> NoDup (l ++ [x]).
Proof. induction l as [|y l IH]; intros D N; cbn [app]; [constructor; [auto|constructor]|]. inversion D; subst. constructor; [|apply IH; auto; intros X; apply N; now right]. intros X. apply in_app_or in X as [X|[X|[]]]; [auto|]. apply N. now left. Qed.
Lemma fine_cs strs cs y t : fine strs cs t -> fine strs (cs ++ y) t.
Proof. intros F. rewrite <- (app_nil_r strs). now apply fine_app. Qed.
Lemma fine_strs strs cs x t : fine strs cs t -> fine (strs ++ x) cs t.
Proof. intros F. rewrite <- (app_nil_r cs). now apply fine_app. Qed.
Lemma step_ok s o s' cs : inv1 s cs -> NoDup (cs ++ created o) -> step s o = Ok s' -> inv1 s' (cs ++ created o) /\ (exists x, strings s' = strings s ++ x) /\
  forall a b na nb W, stays a o -> stays b o -> fifo s a b na nb W -> fifo s' a b na nb (W ++ wrote a [o]).
Proof.
  intros I D E. destruct o as [n r|x|p|c l|c ks e|c ws]; cbn [step] in E; cbn [created wrote] in *; try rewrite (app_nil_r cs) in *.
  - injection E as <-. destruct I as [(D1 & D2 & D3 & F) H]. split; [|split].
    + split; [split; [|split; [|split]]|].
      * cbn [create threads]. rewrite map_app. apply NoDup_snoc; [exact D1|]. cbn [fresh tid]. intros X. rewrite Forall_forall in D3. apply D3 in X. lia.
      * cbn [create threads]. rewrite map_app. apply NoDup_snoc; [exact D2|]. cbn [fresh name]. intros X. apply in_map_iff in X as (t & <- & X). apply thread_in in X; [|exact D1]. apply F in X. destruct X as (X & _). apply NoDup_remove_2 in D. rewrite app_nil_r in D. auto.
      * cbn [create threads ids]. rewrite map_app. apply Forall_app. split; [eapply Forall_impl; [|exact D3]; cbn beta; intros; lia|]. constructor; [cbn; lia|constructor].
      * intros b t. rewrite thread_create. cbn [create strings]. destruct (thread s b) as [u|] eqn:U; [intros [= <-]; apply fine_cs; eauto|]. destruct (Nat.eqb (ids s) b); [|discriminate]. intros [= <-]. apply fine_fresh. apply in_or_app. right. now left.
      * intros b t. rewrite thread_create. destruct (thread s b) as [u|] eqn:U; [intros [= <-]; eauto|]. destruct (Nat.eqb (ids s) b); [|discriminate]. intros [= <-]. unfold short. cbn. lia.
    + exists []. cbn [create strings]. now rewrite app_nil_r.
    + intros a b na nb W _ _ FF. rewrite app_nil_r. apply (fifo_keep s (create s n r) []); [cbn [create strings]; now rewrite app_nil_r| | |exact FF]; intros td T; rewrite thread_create, T; eauto.
  - destruct (2^64 <=? _); [discriminate|]. injection E as <-. destruct I as [(D1 & D2 & D3 & F) H]. split; [|split].
    + split; [split; [exact D1|split; [exact D2|split; [exact D3|]]]|exact H]. intros b t T. cbn [strings]. apply fine_strs. exact (F b t T).
    + exists [x]. reflexivity.
    + intros a b na nb W _ _ FF. rewrite app_nil_r. apply (fifo_keep s _ [x] a b na nb W); [reflexivity| | |exact FF]; intros td T; exists td; auto.
  - apply free_quiet in E as (Q1 & Q2 & Q3 & Q4). assert (TH : forall b, thread s' b = thread s b) by (intros b; unfold thread; now rewrite Q1). destruct I as [(D1 & D2 & D3 & F) H]. split; [|split].
    + split; [split; [now rewrite <- Q1|split; [now rewrite <- Q1|split; [now rewrite <- Q1, <- Q3|]]]|]; intros b t T; rewrite TH in T; [rewrite <- Q2|]; eauto.
    + exists []. now rewrite app_nil_r.
    + intros a b na nb W _ _ FF. rewrite app_nil_r. apply (fifo_keep s s' []); [now rewrite app_nil_r| | |exact FF]; intros td T; exists td; rewrite TH; auto.
  - injection E as <-. destruct I as [I H]. set (f := fun t : thr => set_rcv t (rcv t) (unread t ++ l)) in *.
    assert (TH : forall d, thread (change s c f) d = match thread s d with Some u => Some (if Nat.eqb d c then f u else u) | None => None end) by (intros d; now apply thread_change). split; [|split].
    + split.
      * apply inv_change; [exact I|auto|]. intros u U. exact (proj2 (proj2 (proj2 I)) _ _ U).
      * intros b t. rewrite TH. destruct (thread s b) as [u|] eqn:U; [|discriminate]. intros [= <-]. pose proof (H _ _ U). destruct (Nat.eqb b c); auto.
    + exists []. cbn [strings change]. now rewrite app_nil_r.
    + intros a b na nb W _ _ (ta & R & TA & NA & EW & RL). exists (if Nat.eqb a c then f ta else ta), R. rewrite TH, TA. split; [reflexivity|]. split; [destruct (Nat.eqb a c); exact NA|]. split.
      * rewrite (Nat.eqb_sym c a). destruct (Nat.eqb a c); cbn [f set_rcv rcv unread]; rewrite EW, ?app_nil_r, <- ?app_assoc; reflexivity.
      * eapply (rel_strings s []); [cbn [strings change]; now rewrite app_nil_r|exact RL|]. intros tb TB. rewrite TH, TB. eexists. split; [reflexivity|]. destruct (Nat.eqb b c); auto.
  - destruct (receive_ok _ _ _ _ _ _ I E) as (A & B & C). split; [exact A|]. split; [exact B|]. intros a b na nb W SA SB FF. rewrite app_nil_r. apply C; [|exact FF]. cbn [stays] in SA, SB. intros [X|X]; auto.
  - destruct (send_ok _ _ _ _ _ I E) as (A & B & C). split; [exact A|]. split; [exists []; now rewrite app_nil_r|]. intros a b na nb W SA SB FF. rewrite app_nil_r. apply (fifo_keep s s' []); [now rewrite app_nil_r| | |exact FF]; apply C; cbn [stays] in SA, SB; auto.
Qed.
Lemma wrote_app a : forall h o, wrote a (o :: h) = wrote a [o] ++ wrote a h.
Proof. intros h o. destruct o; cbn [wrote app]; auto. destruct (Nat.eqb _ _); cbn [app]; rewrite ?app_nil_r; auto. Qed.
Lemma run_ok : forall h s s' cs, inv1 s cs -> NoDup (cs ++ flat_map created h) -> run s h = Ok s' -> inv1 s' (cs ++ flat_map created h) /\
  forall a b na nb W, Forall (stays a) h -> Forall (stays b) h -> fifo s a b na nb W -> fifo s' a b na nb (W ++ wrote a h).
Proof.
  induction h as [|o h IH]; intros s s' cs I D E; cbn [run flat_map] in *.
  - injection E as <-. rewrite app_nil_r. split; [exact I|]. intros. cbn [wrote]. now rewrite app_nil_r.
  - apply andthen_ok in E as (s1 & E1 & E2). rewrite app_assoc in D |- *. assert (D' : NoDup (cs ++ created o)). { revert D. generalize (cs ++ created o). intros l. clear. induction l as [|x l IH]; intros D; [constructor|]. cbn [app] in D. inversion D; subst. constructor; [|auto]. intros X. apply H1. apply in_or_app. now left. }
    destruct (step_ok _ _ _ _ I D' E1) as (I1 & _ & F1). destruct (IH _ _ _ I1 D E2) as (I2 & F2). split; [exact I2|]. intros a b na nb W SA SB FF. inversion SA; subst. inversion SB; subst. rewrite (wrote_app a h o), app_assoc. apply F2; auto.
Qed.
Lemma inv_init : inv1 init [].
Proof. split; [split; [constructor|split; [constructor|split; [constructor|]]]|]; intros b t T; discriminate. Qed.
Definition make (x : bytes * bool) : op := Create (fst x) (snd x).
Lemma thread_news l : forall s, (forall d, (ids s <= d)%nat -> thread s d = None) -> exists s', run s (map make l) = Ok s' /\ strings s' = strings s /\ ids s' = (ids s + length l)%nat /\
  (forall d t, thread s d = Some t -> thread s' d = Some t) /\ (forall d n r, nth_error l d = Some (n, r) -> thread s' (ids s + d) = Some (fresh (ids s + d) n r)).
Proof.
  induction l as [|[n r] l IH]; intros s H; cbn [map run].
  - exists s. split; [reflexivity|]. split; [reflexivity|]. split; [cbn [length]; lia|]. split; [auto|]. intros d n r X. destruct d; discriminate.
  - unfold make at 1. cbn [fst snd step andthen]. destruct (IH (create s n r)) as (s' & E & Q & J & K & L).
    + intros d X. cbn [create ids] in X. rewrite thread_create, H by lia. now replace (Nat.eqb (ids s) d) with false by lia.
    + exists s'. split; [exact E|]. split; [exact Q|]. split; [rewrite J; cbn [create ids length]; lia|]. split.
      * intros d t T. apply K. now rewrite thread_create, T.
      * intros [|d] n0 r0 X; cbn [nth_error] in X.
        -- injection X as <- <-. apply K. rewrite Nat.add_0_r, thread_create, H by lia. now rewrite Nat.eqb_refl.
        -- apply L in X. cbn [create ids] in X. replace (ids s + S d)%nat with (S (ids s) + d)%nat by lia. exact X.
Qed.
Lemma run_app : forall h k s, run s (h ++ k) = andthen (run s h) (fun s => run s k).
Proof. induction h as [|o h IH]; intros k s; [reflexivity|]. cbn [app run]. destruct (step s o); cbn [andthen]; auto. Qed.
Lemma wrote_news a l : wrote a (map make l) = [].
Proof. induction l as [|x l IH]; [reflexivity|]. exact IH. Qed.

(** ** Lists of senders *)
Require Import Permutation.
Definition all (s : st) : list item := flat_map dest (threads s).
Definition base (s : st) : Prop := NoDup (map tid (threads s)) /\ Forall (fun a => a < ids s)%nat (map tid (threads s)).
(** [X] are the messages there are. Their senders are threads that have them on their lists, and on the lists is nothing else. *)
Definition links (s : st) (X : list item) : Prop :=
  NoDup (map key X) /\ Forall (fun i => key i < keys s)%nat X /\
  (forall i a, In i X -> from i = Some a -> exists t, thread s a = Some t /\ In (key i) (local t)) /\
  (forall a t k, thread s a = Some t -> In k (local t) -> exists i, In i X /\ key i = k /\ from i = Some a).
Definition tidy (s : st) : Prop := base s /\ links s (all s).
Definition safe (r : res) : Prop := match r with Ok s => tidy s | Fault f => f <> BadLink /\ f <> NoFuel end.

Lemma links_perm s X Y : Permutation X Y -> links s X -> links s Y.
Proof.
  intros P (A & B & C & D). split; [|split; [|split]].
  - eapply Permutation_NoDup; [|exact A]. now apply Permutation_map.
  - eapply Permutation_Forall; eauto.
  - intros i a I. apply C. eapply Permutation_in; [symmetry; exact P|exact I].
  - intros a t k T K. destruct (D a t k T K) as (i & I & J). exists i. split; [eapply Permutation_in; eauto|exact J].
Qed.
Lemma links_same s s' X : keys s = keys s' -> (forall a, option_map local (thread s' a) = option_map local (thread s a)) -> links s X -> links s' X.
Proof.
  intros K L (A & B & C & D). split; [exact A|]. split; [now rewrite <- K|]. split.
  - intros i a I F. destruct (C i a I F) as (t & T & J). specialize (L a). rewrite T in L. destruct (thread s' a) as [t'|]; [|discriminate]. cbn in L. exists t'. split; [reflexivity|]. injection L as L. congruence.
  - intros a t k T J. specialize (L a). rewrite T in L. destruct (thread s a) as [t'|] eqn:T'; [|discriminate]. cbn in L. injection L as L. rewrite L in J. eauto.
Qed.
Lemma perm_change s b f t : NoDup (map tid (threads s)) -> thread s b = Some t -> (forall u, tid (f u) = tid u) -> Permutation (all s ++ dest (f t)) (dest t ++ all (change s b f)).
Proof.
  unfold all, thread, change. cbn [threads]. intros D T K. induction (threads s) as [|u l IH]; cbn [find] in T; [discriminate|]. cbn [map] in D. inversion D as [|? ? D1 D2]; subst. cbn [map flat_map]. destruct (Nat.eqb (tid u) b) eqn:E.
  - injection T as ->. apply Nat.eqb_eq in E. replace (map (fun u => if Nat.eqb (tid u) b then f u else u) l) with l.
    + rewrite <- app_assoc. apply Permutation_app_head. apply Permutation_app_comm.
    + symmetry. rewrite <- (map_id l) at 2. apply map_ext_in. intros v V. destruct (Nat.eqb (tid v) b) eqn:Q; [|reflexivity]. exfalso. apply D1. apply Nat.eqb_eq in Q. rewrite E, <- Q. now apply in_map.
  - rewrite <- app_assoc, (IH D2 T). rewrite !app_assoc. apply Permutation_app_tail. apply Permutation_app_comm.
Qed.
Lemma base_change s b f : (forall u, tid (f u) = tid u) -> base s -> base (change s b f).
Proof. intros K [A B]. unfold base. rewrite change_tids by exact K. auto. Qed.
Lemma all_change s b f : (forall u, dest (f u) = dest u) -> all (change s b f) = all s.
Proof. intros K. unfold all, change. cbn [threads]. induction (threads s) as [|u l IH]; [reflexivity|]. cbn [map flat_map]. rewrite IH. destruct (Nat.eqb (tid u) b); now rewrite ?K. Qed.
Lemma existsb_in k l : existsb (Nat.eqb k) l = true <-> In k l.
Proof. rewrite existsb_exists. split; [intros (x & I & E); apply Nat.eqb_eq in E; now subst|]. intros I. exists k. split; [exact I|apply Nat.eqb_refl]. Qed.

Lemma unlink_links s i X : base s -> links s (i :: X) -> exists s', unlink s i = Ok s' /\ base s' /\ links s' X /\ all s' = all s /\ keys s' = keys s.
Proof.
  intros BS (A & B & C & D). unfold unlink. cbn [map] in A. inversion A as [|? ? A1 A2]; subst. inversion B as [|? ? B1 B2]; subst. destruct (from i) as [a|] eqn:F.
  - destruct (C i a (or_introl eq_refl) F) as (t & T & J). rewrite T. apply existsb_in in J. rewrite J. eexists. split; [reflexivity|]. split; [apply base_change; [reflexivity|exact BS]|]. split; [|split; [now apply all_change|reflexivity]].
    split; [exact A2|]. split; [exact B2|]. split.
    + intros j d I G. rewrite thread_change by reflexivity. destruct (C j d (or_intror I) G) as (u & U & V). rewrite U. eexists. split; [reflexivity|]. destruct (Nat.eqb d a); [|exact V]. cbn [local]. apply in_in_remove; [|exact V]. intros E. apply A1. rewrite <- E. now apply in_map.
    + intros d u k. rewrite thread_change by reflexivity. destruct (thread s d) as [v|] eqn:V; [|discriminate]. intros [= <-] K. destruct (Nat.eqb d a) eqn:DA.
      * cbn [local] in K. apply in_remove in K as [K N]. destruct (D d v k V K) as (j & [<- |J1] & J2 & J3); [congruence|]. eauto.
      * destruct (D d v k V K) as (j & [<- |J1] & J2 & J3); [|eauto]. apply Nat.eqb_neq in DA. congruence.
  - exists s. split; [reflexivity|]. split; [exact BS|]. split; [|auto]. split; [exact A2|]. split; [exact B2|]. split; [intros j d I; apply C; now right|].
    intros d u k U K. destruct (D d u k U K) as (j & [<- |J1] & J2 & J3); [congruence|eauto].
Qed.
Lemma unlink_all_links : forall l s X, base s -> links s (l ++ X) -> exists s', unlink_all s l = Ok s' /\ base s' /\ links s' X /\ all s' = all s /\ keys s' = keys s.
Proof.
  induction l as [|i l IH]; intros s X B L; cbn [unlink_all app] in *; [exists s; auto|]. destruct (unlink_links _ _ _ B L) as (s1 & -> & B1 & L1 & A1 & K1). cbn [andthen].
  destruct (IH _ _ B1 L1) as (s2 & E & B2 & L2 & A2 & K2). exists s2. repeat split; try apply B2; try apply L2; congruence.
Qed.
Lemma free_fault s p : match free s p with Ok _ => True | Fault f => f = BadFree end.
Proof. unfold free. destruct (p =? 0); [exact I|]. destruct (reads s p); auto. Qed.
Lemma clear_msg_fault s m : match clear_msg s m with Ok _ => True | Fault f => f = BadFree end.
Proof. unfold clear_msg. destruct (Nat.ltb _ _); [reflexivity|]. pose proof (free_fault s (dest_of m)). destruct (free s (dest_of m)) as [s1|]; [|exact H]. cbn [andthen]. apply free_fault. Qed.
Lemma clear_all_fault : forall l s, match clear_all s l with Ok _ => True | Fault f => f = BadFree end.
Proof. induction l as [|m l IH]; intros s; cbn [clear_all]; [exact I|]. pose proof (clear_msg_fault s m). destruct (clear_msg s m); [|exact H]. cbn [andthen]. apply IH. Qed.
Lemma quiet_links s s' X : quiet s s' -> base s /\ links s X -> base s' /\ links s' X.
Proof.
  intros (A & B & C & D) [E F]. split; [unfold base in *; now rewrite <- A, <- C|]. eapply links_same; [exact D| |exact F]. intros a. unfold thread. now rewrite A.
Qed.
Lemma quiet_all s s' : quiet s s' -> all s' = all s.
Proof. intros (A & _). unfold all. now rewrite A. Qed.
Lemma quiet_thread s s' a : quiet s s' -> thread s' a = thread s a.
Proof. intros (A & _). unfold thread. now rewrite A. Qed.

Lemma clear_queue_safe s a t : tidy s -> thread s a = Some t ->
  match clear_queue s a with Ok s' => tidy s' /\ (exists t', thread s' a = Some t' /\ local t' = [] /\ dest t' = []) | Fault f => f = BadFree end.
Proof.
  intros [B L] T. unfold clear_queue. rewrite T. set (ks := local t).
  set (s1 := mkW (map (fun u => set_dest u (map (orphan ks) (dest u))) (threads s)) (strings s) (keys s) (ids s) (freed s)). set (f := fun u : thr => mkT (tid u) (name u) (restart u) (unread u) (rcv u) [] (dest u) (gone u) (left u) (got u) (armed u)). set (s2 := change s1 a f).
  assert (TH1 : forall d, thread s1 d = match thread s d with Some u => Some (set_dest u (map (orphan ks) (dest u))) | None => None end).
  { intros d. unfold thread, s1. cbn [threads]. induction (threads s) as [|u l IH]; [reflexivity|]. cbn [map find]. cbn [set_dest tid]. destruct (Nat.eqb (tid u) d); auto. }
  assert (TH2 : forall d, thread s2 d = match thread s d with Some u => Some (if Nat.eqb d a then f (set_dest u (map (orphan ks) (dest u))) else set_dest u (map (orphan ks) (dest u))) | None => None end).
  { intros d. unfold s2. rewrite thread_change by reflexivity. rewrite TH1. destruct (thread s d); reflexivity. }
  assert (AL : all s2 = map (orphan ks) (all s)). { unfold s2. rewrite all_change by reflexivity. unfold all, s1. cbn [threads]. generalize ks. clear. intros ks. induction (threads s) as [|u l IH]; [reflexivity|]. cbn [map flat_map]. rewrite map_app. f_equal. exact IH. }
  assert (B2 : base s2). { apply base_change; [reflexivity|]. destruct B as [B1 B2]. unfold base, s1. cbn [threads ids]. rewrite map_map. cbn [set_dest tid]. auto. }
  assert (OK : forall i, key (orphan ks i) = key i) by (intros i; unfold orphan; destruct (existsb _ _); reflexivity).
  assert (L2 : links s2 (all s2)).
  { destruct L as (A1 & A2 & A3 & A4). rewrite AL. split; [|split; [|split]].
    - rewrite map_map. rewrite (map_ext _ key) by exact OK. exact A1.
    - apply Forall_forall. intros i I. apply in_map_iff in I as (j & <- & J). rewrite OK. rewrite Forall_forall in A2. exact (A2 _ J).
    - intros i d I F. apply in_map_iff in I as (j & <- & J). rewrite OK. unfold orphan in F. destruct (existsb (Nat.eqb (key j)) ks) eqn:O; [discriminate|]. destruct (A3 j d J F) as (u & U & V). rewrite TH2, U. eexists. split; [reflexivity|].
      destruct (Nat.eqb d a) eqn:DA; [|exact V]. exfalso. apply Nat.eqb_eq in DA. subst d. assert (u = t) as -> by congruence. apply existsb_in in V. fold ks in V. congruence.
    - intros d u k. rewrite TH2. destruct (thread s d) as [v|] eqn:V; [|discriminate]. intros [= <-] K. destruct (Nat.eqb d a) eqn:DA; [destruct K|]. cbn [set_dest local] in K. destruct (A4 d v k V K) as (i & I & J1 & J2). exists (orphan ks i). split; [now apply in_map|]. rewrite OK. split; [exact J1|].
      unfold orphan. destruct (existsb (Nat.eqb (key i)) ks) eqn:O; [|exact J2]. exfalso. apply existsb_in in O. destruct (A4 a t (key i) T O) as (j & J & J3 & J4). assert (i = j) as -> by (eapply (NoDup_map_eq key); eauto). apply Nat.eqb_neq in DA. congruence. }
  fold s1. change (change s1 a (fun t0 => mkT (tid t0) (name t0) (restart t0) (unread t0) (rcv t0) [] (dest t0) (gone t0) (left t0) (got t0) (armed t0))) with s2.
  assert (T2 : thread s2 a = Some (f (set_dest t (map (orphan ks) (dest t))))) by (rewrite TH2, T, Nat.eqb_refl; reflexivity). rewrite T2. set (t2 := f (set_dest t (map (orphan ks) (dest t)))) in *.
  set (g := fun u : thr => set_dest u []).
  pose proof (perm_change s2 a g t2 (proj1 B2) T2 (fun u => eq_refl)) as P. cbn [g set_dest dest] in P. rewrite app_nil_r in P. fold (set_dest) in P.
  destruct (unlink_all_links (dest t2) s2 (all (change s2 a g)) B2) as (s3 & E3 & B3 & L3 & A3 & K3). { eapply links_perm; [exact P|exact L2]. }
  rewrite E3. cbn [andthen]. pose proof (clear_all_fault (map what (dest t2)) s3) as CF. destruct (clear_all s3 (map what (dest t2))) as [s4|] eqn:E4; [|exact CF]. cbn [andthen]. apply clear_all_quiet in E4.
  destruct (quiet_links _ _ _ E4 (conj B3 L3)) as [B4 L4].
  assert (T3 : exists t3, thread s3 a = Some t3 /\ local t3 = []).
  { revert E3 T2. assert (Y : local t2 = []) by reflexivity. revert Y. generalize t2 at 1 3. generalize (dest t2). generalize s2. clear. intros s0 l. revert s0. induction l as [|i l IH]; intros s0 t0 Y E T; cbn [unlink_all] in E; [injection E as <-; eauto|].
    apply andthen_ok in E as (s1 & E1 & E2). unfold unlink in E1. destruct (from i) as [d|]; [|injection E1 as <-; eauto]. destruct (thread s0 d) as [u|] eqn:U; [|discriminate]. destruct (existsb _ _) eqn:X; [|discriminate]. injection E1 as <-.
    eapply (IH _ _ _ E2). rewrite thread_change by reflexivity. rewrite T. destruct (Nat.eqb a d) eqn:AD; [|reflexivity]. exfalso. apply Nat.eqb_eq in AD. subst d. assert (u = t0) as -> by congruence. rewrite Y in X. discriminate.
    Unshelve. exact Y. }
  destruct T3 as (t3 & T3 & T3'). split; [split; [apply base_change; [reflexivity|exact B4]|]|].
  - assert (Y : Permutation (all (change s2 a g)) (all (change s4 a g))).
    { pose proof (quiet_thread _ _ a E4) as QT. rewrite T3 in QT. pose proof (perm_change s4 a g t3 (proj1 B4) QT (fun u => eq_refl)) as P4. cbn [g set_dest dest] in P4. rewrite app_nil_r in P4. rewrite (quiet_all _ _ E4), A3 in P4.
      assert (DE : dest t3 = dest t2); [|rewrite DE in P4; eapply Permutation_app_inv_l; rewrite <- P; exact P4].
      revert E3 T2 T3. generalize (dest t2) at 1. generalize t2 s2. clear. intros t0 s0 l. revert t0 s0. induction l as [|i l IH]; intros t0 s0 E T T'; cbn [unlink_all] in E; [injection E as <-; congruence|].
      apply andthen_ok in E as (s1 & E1 & E2). unfold unlink in E1. destruct (from i) as [d|]; [|injection E1 as <-; eauto]. destruct (thread s0 d) as [u|] eqn:U; [|discriminate]. destruct (existsb _ _) eqn:X; [|discriminate]. injection E1 as <-.
      rewrite (IH (if Nat.eqb a d then mkT (tid t0) (name t0) (restart t0) (unread t0) (rcv t0) (remove Nat.eq_dec (key i) (local t0)) (dest t0) (gone t0) (left t0) (got t0) (armed t0) else t0) _ E2); [destruct (Nat.eqb a d); reflexivity| |exact T']. rewrite thread_change by reflexivity. rewrite T. reflexivity. }
    eapply links_perm; [exact Y|]. eapply links_same; [| |exact L4]; [reflexivity|]. intros d. rewrite thread_change by reflexivity. destruct (thread s4 d) as [u|]; [|reflexivity]. destruct (Nat.eqb d a); reflexivity.
  - rewrite thread_change by reflexivity. rewrite (quiet_thread _ _ a E4), T3, Nat.eqb_refl. eexists. split; [reflexivity|]. auto.
Qed.
Lemma exits_safe s a t : tidy s -> thread s a = Some t -> safe (exits s a).
Proof.
  intros TD T. unfold exits. rewrite T. match goal with |- context [clear_all s ?x] => generalize x end. intros l. pose proof (clear_all_fault l s) as CF. destruct (clear_all s l) as [s1|f] eqn:E1; cbn [andthen]; [|subst f; split; discriminate]. apply clear_all_quiet in E1.
  assert (TD1 : tidy s1). { unfold tidy. rewrite (quiet_all _ _ E1). exact (quiet_links _ _ _ E1 TD). }
  assert (T1 : thread s1 a = Some t) by (now rewrite (quiet_thread _ _ a E1)).
  pose proof (clear_queue_safe s1 a t TD1 T1) as Q. destruct (clear_queue s1 a) as [s2|f]; cbn [andthen]; [|subst f; split; discriminate]. destruct Q as ([B2 L2] & t2 & T2 & LO & DE).
  destruct (restart t); cbn [safe].
  - set (f := fun u : thr => fresh a (name u) true).
    assert (TIDS : forall b, find (fun u => Nat.eqb (tid u) b) (map (fun u => if Nat.eqb (tid u) a then f u else u) (threads s2)) = match thread s2 b with Some u => Some (if Nat.eqb b a then f u else u) | None => None end).
    { intros b. unfold thread. induction (threads s2) as [|u k IH]; [reflexivity|]. cbn [map find]. destruct (Nat.eqb (tid u) a) eqn:A.
      - cbn [f fresh tid]. apply Nat.eqb_eq in A. rewrite A. destruct (Nat.eqb a b) eqn:AB; [|exact IH]. now rewrite (Nat.eqb_sym b a), AB.
      - destruct (Nat.eqb (tid u) b) eqn:UB; [|exact IH]. replace (Nat.eqb b a) with false by lia. reflexivity. }
    assert (MT : map tid (threads (change s2 a f)) = map tid (threads s2)). { unfold change. cbn [threads]. rewrite map_map. apply map_ext. intros u. destruct (Nat.eqb (tid u) a) eqn:A; [cbn; lia|reflexivity]. }
    split; [unfold base; rewrite MT; exact B2|].
    assert (AL : all (change s2 a f) = all s2).
    { destruct (thread_tid _ _ _ T2) as [X Y]. destruct B2 as [B2 _]. unfold all, change. cbn [threads]. rewrite !flat_map_concat_map. f_equal. rewrite map_map. apply map_ext_in. intros u U. destruct (Nat.eqb (tid u) a) eqn:A; [|reflexivity]. apply Nat.eqb_eq in A. assert (u = t2) as -> by (eapply (NoDup_map_eq tid); eauto; congruence). now rewrite DE. }
    rewrite AL. eapply links_same; [| |exact L2]; [reflexivity|]. intros b. unfold thread at 1, change. cbn [threads]. rewrite TIDS. destruct (thread s2 b) as [u|] eqn:U; [|reflexivity]. destruct (Nat.eqb b a) eqn:BA; [|reflexivity]. apply Nat.eqb_eq in BA. subst b. assert (u = t2) as -> by congruence. cbn [option_map f fresh local]. now rewrite LO.
  - set (s3 := mkW _ _ _ _ _). assert (AL : all s3 = all s2).
    { destruct (thread_tid _ _ _ T2) as [X Y]. destruct B2 as [B2 _]. unfold all, s3. cbn [threads]. clear - X Y B2 DE. assert (G : forall u, In u (threads s2) -> tid u = a -> dest u = []). { intros u U A. assert (u = t2) as -> by (eapply (NoDup_map_eq tid); eauto; congruence). exact DE. } clear - G.
      induction (threads s2) as [|u l IH]; [reflexivity|]. cbn [filter flat_map]. destruct (Nat.eqb (tid u) a) eqn:A; cbn [negb flat_map].
      - rewrite (G u (or_introl eq_refl)) by lia. cbn [app]. apply IH. intros; apply G; auto. now right.
      - f_equal. apply IH. intros; apply G; auto. now right. }
    assert (TH : forall b, thread s3 b = if Nat.eqb b a then None else thread s2 b).
    { intros b. unfold thread, s3. cbn [threads]. clear. induction (threads s2) as [|u l IH]; cbn [filter find]; [now destruct (Nat.eqb b a)|]. destruct (Nat.eqb (tid u) a) eqn:A; cbn [negb find].
      - rewrite IH. destruct (Nat.eqb b a) eqn:BA; [reflexivity|]. now replace (Nat.eqb (tid u) b) with false by lia.
      - rewrite IH. destruct (Nat.eqb (tid u) b) eqn:UB; [|reflexivity]. now replace (Nat.eqb b a) with false by lia. }
    assert (MT : map tid (threads s3) = filter (fun x => negb (Nat.eqb x a)) (map tid (threads s2))).
    { unfold s3. cbn [threads]. clear. induction (threads s2) as [|u l IH]; [reflexivity|]. cbn [map filter]. destruct (Nat.eqb (tid u) a); cbn [negb map]; [exact IH|now f_equal]. }
    split.
    + unfold base. rewrite MT. destruct B2 as [X Y]. split; [now apply NoDup_filter|]. apply Forall_forall. intros x I. apply filter_In in I as [I _]. rewrite Forall_forall in Y. exact (Y _ I).
    + rewrite AL. destruct L2 as (A1 & A2 & A3 & A4). split; [exact A1|]. split; [exact A2|]. split.
      * intros i d I F. destruct (A3 i d I F) as (u & U & K). rewrite TH. destruct (Nat.eqb d a) eqn:DA; [|eauto]. exfalso. apply Nat.eqb_eq in DA. subst d. assert (u = t2) as -> by congruence. rewrite LO in K. destruct K.
      * intros d u k. rewrite TH. destruct (Nat.eqb d a); [discriminate|]. apply A4.
Qed.

Lemma change_tidy s a f : (forall u, tid (f u) = tid u /\ dest (f u) = dest u /\ local (f u) = local u) -> tidy s -> tidy (change s a f).
Proof.
  intros K [B L]. split; [apply base_change; [apply K|exact B]|]. rewrite all_change by apply K. eapply links_same; [| |exact L]; [reflexivity|]. intros b. rewrite thread_change by apply K. destruct (thread s b) as [u|]; [|reflexivity]. destruct (Nat.eqb b a); [|reflexivity]. cbn [option_map]. now rewrite (proj2 (proj2 (K u))).
Qed.
Lemma route_safe s c m t : tidy s -> thread s c = Some t -> safe (route s c m) /\ forall s', route s c m = Ok s' -> exists t', thread s' c = Some t' /\ rcv t' = rcv t.
Proof.
  intros [B L] T. unfold route. rewrite T. set (p := _ + 1). destruct (2^64 <=? p); [split; [split; discriminate|discriminate]|]. set (m' := with_src m p). set (s1 := mkW (threads s) (strings s ++ [name t]) (keys s) (ids s) (freed s)).
  destruct (reads s1 (dest_of m')) as [d|]; [|split; [split; discriminate|discriminate]].
  assert (TD1 : tidy s1) by (split; [exact B|exact L]). destruct (find (fun t0 => same (name t0) d) (threads s1)) as [u|] eqn:U.
  - apply find_some in U as [U1 _]. change (threads s1) with (threads s) in U1. pose proof (thread_in _ _ (proj1 B) U1) as U2.
    set (f := fun t : thr => mkT (tid t) (name t) (restart t) (unread t) (rcv t) (local t ++ [keys s1]) (dest t) (gone t) (left t) (got t) (armed t)).
    set (i := mkI (keys (change s1 c f)) (Some c) m').
    set (g := fun t : thr => mkT (tid t) (name t) (restart t) (unread t) (rcv t) (local t) (dest t ++ [i]) (gone t) (left t) (got t) (match dest t with [] => true | _ => armed t end)).
    set (s2 := change s1 c f). set (s3 := change s2 (tid u) g).
    assert (TH : forall b, thread s3 b = match thread s b with Some v => Some (if Nat.eqb b (tid u) then g (if Nat.eqb b c then f v else v) else if Nat.eqb b c then f v else v) | None => None end).
    { intros b. unfold s3, s2. rewrite !thread_change by reflexivity. change (thread s1 b) with (thread s b). destruct (thread s b); reflexivity. }
    assert (B2 : base s2) by (apply base_change; [reflexivity|exact B]).
    split.
    + cbn [safe]. split.
      * unfold base. cbn [threads ids]. exact (base_change s2 (tid u) g (fun _ => eq_refl) B2).
      * change (all (mkW (threads s3) (strings s3) (S (keys s3)) (ids s3) (freed s3))) with (all s3).
        assert (P : Permutation (i :: all s) (all s3)).
        { assert (T2 : thread s2 (tid u) = Some (if Nat.eqb (tid u) c then f u else u)) by (unfold s2; rewrite thread_change by reflexivity; change (thread s1 (tid u)) with (thread s (tid u)); rewrite U2; reflexivity).
          pose proof (perm_change s2 (tid u) g _ (proj1 B2) T2 (fun _ => eq_refl)) as P. fold s3 in P. unfold s2 in P at 1. rewrite all_change in P by reflexivity. change (all s1) with (all s) in P. cbn [g dest] in P. rewrite (app_assoc (all s)) in P. rewrite (Permutation_app_comm (all s)) in P. rewrite <- app_assoc in P. apply Permutation_app_inv_l in P. rewrite <- P. apply Permutation_cons_append. }
        eapply links_perm; [exact P|]. destruct L as (A1 & A2 & A3 & A4).
        assert (KI : key i = keys s) by reflexivity. assert (NK : ~ In (keys s) (map key (all s))). { intros X. apply in_map_iff in X as (j & X & J). rewrite Forall_forall in A2. apply A2 in J. cbn beta in J. clear - X J. lia. }
        assert (TH' : forall b, thread (mkW (threads s3) (strings s3) (S (keys s3)) (ids s3) (freed s3)) b = thread s3 b) by reflexivity.
        split; [|split; [|split]].
        -- cbn [map]. constructor; [rewrite KI; exact NK|exact A1].
        -- cbn [keys]. change (keys s3) with (keys s). constructor; [rewrite KI; clear; lia|]. eapply Forall_impl; [|exact A2]. cbn beta. intros j J. clear - J. lia.
        -- intros j b [<- |J] F.
           ++ injection F as <-. rewrite TH', TH, T. eexists. split; [reflexivity|]. rewrite Nat.eqb_refl. destruct (Nat.eqb c (tid u)); cbn [g f local]; apply in_or_app; right; left; reflexivity.
           ++ destruct (A3 j b J F) as (v & V & K). rewrite TH', TH, V. eexists. split; [reflexivity|]. destruct (Nat.eqb b (tid u)), (Nat.eqb b c); cbn [g f local]; try exact K; apply in_or_app; left; exact K.
        -- intros b v k. rewrite TH', TH. destruct (thread s b) as [w|] eqn:W; [|discriminate]. intros [= <-] K.
           assert (K' : In k (local w) \/ (b = c /\ k = keys s)). { revert K. destruct (Nat.eqb b (tid u)), (Nat.eqb b c) eqn:BC; cbn [g f local]; intros K; auto; apply Nat.eqb_eq in BC; apply in_app_or in K as [K|[K|[]]]; auto. }
           destruct K' as [K'|[-> ->]]; [destruct (A4 b w k W K') as (j & J & J'); exists j; split; [now right|exact J']|]. exists i. split; [now left|]. auto.
    + intros s' [= <-]. change (exists t', thread s3 c = Some t' /\ rcv t' = rcv t). rewrite TH, T. eexists. split; [reflexivity|]. destruct (Nat.eqb c (tid u)), (Nat.eqb c c); reflexivity.
  - pose proof (clear_msg_fault s1 m') as CF. destruct (clear_msg s1 m') as [s2|f] eqn:E; [|split; [subst f; split; discriminate|discriminate]]. apply clear_msg_quiet in E. split.
    + cbn [safe]. unfold tidy. rewrite (quiet_all _ _ E). exact (quiet_links _ _ _ E TD1).
    + intros s' [= <-]. exists t. rewrite (quiet_thread _ _ c E). auto.
Qed.
Lemma process_safe : forall fuel s c t, tidy s -> thread s c = Some t -> (length (held (rcv t)) < fuel)%nat -> safe (process fuel s c).
Proof.
  induction fuel as [|fuel IH]; intros s c t TD T H; [lia|]. cbn [process]. rewrite T. pose proof (get_buf_ok (rcv t)) as G. destruct (get_buf (rcv t) size) as [[m c1]|]; [|exact TD]. destruct G as [W E].
  set (f := fun u : thr => set_rcv u c1 (unread u)). assert (TD0 : tidy (change s c f)) by (apply change_tidy; auto). assert (T0 : thread (change s c f) c = Some (f t)) by (rewrite thread_change, T, Nat.eqb_refl by reflexivity; reflexivity).
  destruct (route_safe _ _ m _ TD0 T0) as [R1 R2]. destruct (route (change s c f) c m) as [s1|g]; [|exact R1]. cbn [andthen]. destruct (R2 s1 eq_refl) as (t1 & T1 & C1). apply (IH s1 c t1 R1 T1). rewrite C1. cbn [f set_rcv rcv]. rewrite E, app_length in H. unfold whole in W. lia.
Qed.
Lemma receive_safe s c ks e : tidy s -> safe (receive s c ks e).
Proof.
  intros TD. unfold receive. destruct (thread s c) as [t|] eqn:T; [|exact TD]. destruct (pieces ks (unread t)) as [c1 l] eqn:P. apply pieces_ok in P. set (f := fun u : thr => set_rcv u (rcv u ++ c1) l).
  assert (TD0 : tidy (change s c f)) by (apply change_tidy; auto). assert (T0 : thread (change s c f) c = Some (f t)) by (rewrite thread_change, T, Nat.eqb_refl by reflexivity; reflexivity).
  assert (PR : safe (process (S (length (unread t) + length (concat (map snd (rcv t))))) (change s c f) c)).
  { eapply process_safe; [exact TD0|exact T0|]. cbn [f set_rcv rcv]. rewrite held_app, app_length. unfold held at 1. rewrite <- P, app_length. lia. }
  destruct e; [exact PR|destruct l; [|exact PR]|]; eapply exits_safe; eauto.
Qed.
Lemma send_safe s b ws : tidy s -> safe (send s b ws).
Proof.
  intros TD. unfold send. destruct (thread s b) as [t|] eqn:T; [|exact TD]. destruct (armed t); [|exact TD].
  destruct (pump_ok (dest t) ws (gone t) (left t)) as (_ & _ & _ & P4). set (r := pump ws (gone t) (left t) (dest t)) in *. set (f := fun u : thr => mkT (tid u) (name u) (restart u) (unread u) (rcv u) (local u) (rest r) (pgone r) (pleft r) (got u ++ written r) _).
  destruct TD as [B L]. pose proof (perm_change s b f t (proj1 B) T (fun _ => eq_refl)) as P. cbn [f dest] in P. rewrite <- P4 in P. fold f in P.
  assert (P' : Permutation (all s) (off r ++ all (change s b f))). { rewrite (Permutation_app_comm (all s)) in P. rewrite (Permutation_app_comm (off r)) in P. rewrite <- app_assoc in P. now apply Permutation_app_inv_l in P. }
  assert (B1 : base (change s b f)) by (apply base_change; [reflexivity|exact B]).
  destruct (unlink_all_links (off r) (change s b f) (all (change s b f)) B1) as (s2 & E2 & B2 & L2 & A2 & K2).
  { eapply links_perm; [exact P'|]. eapply links_same; [| |exact L]; [reflexivity|]. intros d. rewrite thread_change by reflexivity. destruct (thread s d) as [u|]; [|reflexivity]. destruct (Nat.eqb d b); reflexivity. }
  rewrite E2. cbn [andthen]. assert (TD2 : tidy s2) by (split; [exact B2|rewrite A2; exact L2]). destruct (ends r) as [[]|]; try exact TD2.
  destruct (thread s2 b) as [t2|] eqn:T2; [eapply exits_safe; eauto|]. exfalso.
  apply unlink_all_alike in E2. apply (alike_thread _ _ b) in E2. rewrite T2, thread_change, T in E2 by reflexivity. discriminate.
Qed.
Lemma step_safe s o : tidy s -> safe (step s o).
Proof.
  intros TD. destruct o as [n r|x|p|c l|c ks e|c ws]; cbn [step].
  - destruct TD as [[B1 B2] L]. cbn [safe]. split.
    + unfold base. cbn [create threads ids]. rewrite map_app. split.
      * apply NoDup_snoc; [exact B1|]. cbn [fresh tid]. intros X. rewrite Forall_forall in B2. apply B2 in X. lia.
      * apply Forall_app. split; [eapply Forall_impl; [|exact B2]; cbn beta; intros; lia|]. constructor; [cbn; lia|constructor].
    + assert (all (create s n r) = all s) as ->. { unfold all, create. cbn [threads]. rewrite flat_map_app. cbn [flat_map fresh dest app]. now rewrite app_nil_r. }
      destruct L as (A1 & A2 & A3 & A4). split; [exact A1|]. split; [exact A2|]. split.
      * intros i a I F. destruct (A3 i a I F) as (t & T & K). exists t. rewrite thread_create, T. auto.
      * intros a t k. rewrite thread_create. destruct (thread s a) as [u|] eqn:U; [intros [= <-]; now apply A4|]. destruct (Nat.eqb (ids s) a); [|discriminate]. intros [= <-] [].
  - destruct (2^64 <=? _); [split; discriminate|exact TD].
  - pose proof (free_fault s p) as F. destruct (free s p) as [s1|f] eqn:E; [|subst f; split; discriminate]. apply free_quiet in E. cbn [safe]. unfold tidy. rewrite (quiet_all _ _ E). exact (quiet_links _ _ _ E TD).
  - cbn [safe]. apply change_tidy; auto.
  - now apply receive_safe.
  - now apply send_safe.
Qed.
Lemma run_safe : forall h s, tidy s -> safe (run s h).
Proof. induction h as [|o h IH]; intros s TD; cbn [run]; [exact TD|]. pose proof (step_safe s o TD) as X. destruct (step s o); [|exact X]. cbn [andthen]. now apply IH. Qed.
Lemma tidy_init : tidy init.
Proof. split; [split; constructor|]. split; [constructor|]. split; [constructor|]. split; [intros i a []|intros a t k T; discriminate]. Qed.

(** ** With enough room all is sent *)
Lemma push_enough : forall ws l, ~ In Broke ws -> (length l <= length ws)%nat -> exists ws', push ws l = (l, [], ws', None) /\ (length ws <= length ws' + length l)%nat /\ ~ In Broke ws'.
Proof.
  induction ws as [|x ws IH]; intros l N H; destruct l as [|y l]; cbn [push].
  - exists []. auto.
  - cbn [length] in H. lia.
  - exists (x :: ws). split; [reflexivity|]. split; [lia|exact N].
  - destruct x as [n|]; [|exfalso; apply N; now left]. set (k := Nat.min (Nat.max 1 n) (length (y :: l))). assert (K : (1 <= k <= length (y :: l))%nat) by (unfold k; cbn [length]; lia).
    destruct (IH (skipn k (y :: l))) as (ws' & E & L & N'); [intros X; apply N; now right|rewrite skipn_length; cbn [length] in *; lia|]. rewrite E. exists ws'. rewrite firstn_skipn. split; [reflexivity|]. rewrite skipn_length in L. cbn [length] in *. split; [lia|exact N'].
Qed.
Lemma pump_enough : forall q ws g l, ~ In Broke ws -> (length (l ++ concat (map what q)) <= length ws)%nat -> ends (pump ws g l q) = None.
Proof.
  induction q as [|i q IH]; intros ws g l N H; cbn [pump]; rewrite app_length in H; destruct (push_enough ws l N ltac:(lia)) as (ws' & -> & L & N'); cbn [ends]; [reflexivity|]. apply IH; [exact N'|]. cbn [map concat] in H. lia.
Qed.

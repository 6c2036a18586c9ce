(** * Proofs about descriptors *)
Require Import List Arith NArith Bool Lia.
Require Import ZifyBool ZifyNat ZifyN.
Require Import Verif.Base Verif.EventModel Verif.EventSpec.
Import ListNotations.

(** ** One descriptor *)
(** Where the dispatcher is, as far as the descriptor is concerned: its generation, and the kind of the handler, none for that of the timeout. *)
Definition busy := option (nat * option kind).
Definition busy_at (p : pc) (fd : nat) : busy :=
  match p with
  | InHandler (f, g) k _ => if f =? fd then Some (g, Some k) else None
  | InTimeout (f, g) _ => if f =? fd then Some (g, None) else None
  | _ => None
  end.
Definition lappend (d : desc) (f : kset) (o : bool) (h : option nat) (m : bool) (w : option watch) : desc * option watch :=
  let d := mkD (gen d) (fun k => want d k || f k) (fun k => once d k || f k && o) (act d) (fun k => if f k then h else hand d k) (thand d) (deadline d) (in_process d) (is_clear d) (in_active d) in
  (d, if some_of (want d) then match w, m with Some _, true | None, false => Some (mkW (want d) o true (gen d)) | _, _ => w end else w).
Definition lset (g : nat) (od : option desc) (w : option watch) (f : kset) (o a : bool) (t : timeout) (h : option nat) : option (desc * option watch) :=
  match od with
  | None => Some (lappend (set_timeout (blank g false) t) f o h false w)
  | Some d =>
      if a then if is_clear d then None else Some (lappend (set_timeout d t) f o h true w)
      else if is_clear d then Some (lappend (set_timeout (blank (gen d) (in_process d)) t) f o h false w)
      else Some (lappend (set_timeout (mkD (gen d) none_of none_of (act d) (hand d) (thand d) (deadline d) (in_process d) (is_clear d) (in_active d)) t) f o h true w)
  end.
Definition lclear (od : option desc) (w : option watch) : option desc * option watch :=
  match od with
  | None => (None, w)
  | Some d => if in_process d then (Some (with_marks (with_deadline d None) true true (in_active d)), None) else (None, None)
  end.
Definition lfinish (d : desc) (w : option watch) : option desc * option watch :=
  if is_clear d then (None, None) else (Some (with_marks d false (is_clear d) (in_active d)), w).
Definition lnote (ev : kset) (x : desc * option watch * bool) (k : kind) : desc * option watch * bool :=
  let '(d, w, x) := x in
  if negb (ev k) then (d, w, x)
  else if in_active d || in_process d then (if once d k && negb (act d k) then lappend d (only k) true (hand d k) true w else (d, w), x)
  else (mkD (gen d) (if once d k then upk (want d) k false else want d) (upk (once d) k false) (upk (act d) k true) (hand d) (thand d) (deadline d) (in_process d) (is_clear d) (in_active d), w, x || once d k).
Definition lreport (d : desc) (w : watch) (ev : kset) : desc * option watch :=
  let '(d, w, x) := lnote ev (lnote ev (lnote ev (d, Some (if once_only w then mkW (mask w) true false (data_ptr w) else w), false) Recv) Send) Err in
  if in_active d || in_process d then (d, w)
  else (with_marks d (in_process d) (is_clear d) true, if x then match w with Some _ => Some (mkW (want d) (some_of (once d)) true (gen d)) | None => w end else w).
Definition gives_up (b : bool) (d : desc) : desc := if is_clear d || b then with_act d none_of else d.
Definition rest_of (k : kind) : list kind := match k with Recv => [Send; Err] | Send => [Err] | Err => [] end.
Definition told (fd : nat) (ev : kset) : list event :=
  (if ev Err then [Reported fd Err] else []) ++ (if ev Send then [Reported fd Send] else []) ++ (if ev Recv then [Reported fd Recv] else []).

(** The handlers that were not there, the latest first, and where the walk over the kinds stops. *)
Inductive walk (d : desc) : list kind -> list kind -> kset -> option (kind * nat) -> Prop :=
| w_end : forall a, (forall k, a k = act d k) -> walk d [] [] a None
| w_call : forall k ks h a, act d k = true -> hand d k = Some h -> (forall k, a k = act d k) -> walk d (k :: ks) [] a (Some (k, h))
| w_skip : forall k ks l a r, act d k = false -> walk d ks l a r -> walk d (k :: ks) l a r
| w_ignore : forall k ks l a r, act d k = true -> hand d k = None -> walk (with_act d (upk (act d) k false)) ks l a r -> walk d (k :: ks) (l ++ [k]) a r.

Inductive lstep (quick : bool) (bound fd : nat) (h : list event) : option desc -> option watch -> busy -> list event -> option desc -> option watch -> busy -> Prop :=
| l_set : forall g od w b f o a t hd d w', lset g od w f o a t hd = Some (d, w') -> lstep quick bound fd h od w b [WasSet fd f o a t hd] (Some d) w' b
| l_clear : forall od w b od' w', lclear od w = (od', w') -> lstep quick bound fd h od w b [Cleared fd] od' w' b
| l_handler : forall d w b hd, is_clear d = false -> lstep quick bound fd h (Some d) w b [TimeoutHandler fd hd]
    (Some (mkD (gen d) (want d) (once d) (act d) (hand d) hd (deadline d) (in_process d) (is_clear d) (in_active d))) w b
| l_go : forall d w brk l a r od' w' b' d1, in_active d = true -> (quick = true -> brk = false) ->
    d1 = gives_up brk (with_marks (with_deadline d None) true (is_clear d) false) -> walk d1 [Recv; Send; Err] l a r ->
    (match r with Some (k, hd) => od' = Some (with_act d1 a) /\ w' = w /\ b' = Some (gen d, Some k) | None => (od', w') = lfinish (with_act d1 a) w /\ b' = None end) ->
    lstep quick bound fd h (Some d) w None (match r with Some (k, hd) => [Called fd k hd] | None => [] end ++ map (Ignored fd) l ++ [Served fd]) od' w' b'
| l_back : forall d w k0 brk l a r od' w' b' d1, (quick = true -> brk = false) ->
    d1 = gives_up brk (with_act d (upk (act d) k0 false)) -> walk d1 (rest_of k0) l a r ->
    (match r with Some (k, hd) => od' = Some (with_act d1 a) /\ w' = w /\ b' = Some (gen d, Some k) | None => (od', w') = lfinish (with_act d1 a) w /\ b' = None end) ->
    lstep quick bound fd h (Some d) w (Some (gen d, Some k0)) (match r with Some (k, hd) => [Called fd k hd] | None => [] end ++ map (Ignored fd) l) od' w' b'
| l_return : forall d w od' w', (od', w') = lfinish d w -> lstep quick bound fd h (Some d) w (Some (gen d, None)) [] od' w' None
| l_look : forall d w, (quick = true -> in_active d = false) -> lstep quick bound fd h (Some d) w None [] (Some (with_marks d (in_process d) (is_clear d) false)) w None
| l_expire : forall d w now od' w' b' d1, (quick = true -> in_active d = false) -> allowed bound h (Expired fd (thand d) now) ->
    d1 = with_marks (with_deadline d None) true (is_clear d) false ->
    (match thand d with Some _ => od' = Some d1 /\ w' = w /\ b' = Some (gen d, None) | None => (od', w') = lfinish d1 w /\ b' = None end) ->
    lstep quick bound fd h (Some d) w None [Expired fd (thand d) now] od' w' b'
| l_report : forall d w ev d' w', (quick = true -> in_active d = false) -> armed w = true -> (ev Recv = true -> mask w Recv = true) -> (ev Send = true -> mask w Send = true) ->
    lreport d w ev = (d', w') -> lstep quick bound fd h (Some d) (Some w) None (told fd ev) (Some d') w' None.

(** ** What is known of a descriptor *)
Definition good (h : list event) (fd : nat) (od : option desc) (w : option watch) (b : busy) : Prop :=
  match od with
  | None => w = None /\ b = None /\ timeout_handler h fd = None /\ due h fd = None /\
      (forall k, registered h fd k = None /\ pending h fd k = false /\ shots h fd k = None /\ wanted h fd k = false)
  | Some d =>
      match b with Some (g, _) => g = gen d /\ in_process d = true | None => in_process d = false end /\
      (is_clear d = true -> in_process d = true) /\ (in_active d = true -> in_process d = false) /\
      (forall w', w = Some w' -> data_ptr w' = gen d /\ is_clear d = false) /\ deadline d = due h fd /\
      (if is_clear d
       then due h fd = None /\ timeout_handler h fd = None /\ (forall k, registered h fd k = None /\ pending h fd k = false /\ shots h fd k = None /\ wanted h fd k = false)
       else thand d = timeout_handler h fd /\ (forall k, hand d k = registered h fd k /\ (act d k = true -> pending h fd k = true \/ b = Some (gen d, Some k))))
  end.
(** One shot: it is to come, or it was reported, or it is over. *)
Definition aimed (h : list event) (fd : nat) (od : option desc) (w : option watch) (b : busy) : Prop :=
  forall d k n, od = Some d -> is_clear d = false -> k <> Err -> shots h fd k = Some n ->
    (forall w', w = Some w' -> mask w' k = true -> want d k = true) /\
    ((n = 1 /\ once d k = true /\ want d k = true /\ (act d k = false \/ b = Some (gen d, Some k))) \/
     (n = 1 /\ once d k = false /\ want d k = false /\ b <> Some (gen d, Some k)) \/
     (n = 0 /\ once d k = false /\ want d k = false /\ (act d k = false \/ b = Some (gen d, Some k)))).
Definition watched (h : list event) (fd : nat) (od : option desc) (w : option watch) : Prop :=
  forall d, od = Some d -> is_clear d = false ->
    some_of (want d) = true /\ (forall k, once d k = false /\ want d k = wanted h fd k) /\
    exists m, w = Some (mkW m false true (gen d)) /\ forall k, m k = want d k.
Definition served (h : list event) (fd : nat) (od : option desc) (b : busy) : Prop :=
  forall k, pending h fd k = true -> exists d, od = Some d /\ act d k = true /\ (in_active d = true \/ exists k0, b = Some (gen d, Some k0) /\ In k (rest_of k0)).

(** ** The walk over the kinds *)
Lemma kind_eqb_eq : forall a b, kind_eqb a b = true <-> a = b.
Proof. intros [] []; cbn; split; congruence. Qed.
Lemma kind_eqb_refl : forall k, kind_eqb k k = true.
Proof. intros []; reflexivity. Qed.
Lemma kind_dec : forall a b : kind, {a = b} + {a <> b}.
Proof. decide equality. Qed.
Lemma upk_same : forall {A} (f : kind -> A) k v, upk f k v k = v.
Proof. intros. unfold upk. now rewrite kind_eqb_refl. Qed.
Lemma upk_other : forall {A} (f : kind -> A) k v k', k <> k' -> upk f k v k' = f k'.
Proof. intros A f k v k' N. unfold upk. destruct (kind_eqb k k') eqn:E; [apply kind_eqb_eq in E; congruence|easy]. Qed.
Definition chain (ks : list kind) : Prop := ks = [Recv; Send; Err] \/ exists k, ks = rest_of k.
Lemma chain_tail : forall k ks, chain (k :: ks) -> ks = rest_of k /\ ~ In k ks /\ chain ks.
Proof.
  intros k ks [E|[k0 E]]; [|destruct k0; cbn in E]; try discriminate; injection E as -> ->; (split; [reflexivity|]);
    (split; [intros I; repeat (destruct I as [I|I]; [discriminate|]); exact I|]); right.
  - now exists Recv. - now exists Send. - now exists Err.
Qed.
Lemma walk_facts : forall d ks l a r, walk d ks l a r -> chain ks ->
  (forall k, In k l -> In k ks /\ act d k = true /\ hand d k = None) /\ NoDup l /\ (forall k, In k l -> a k = false) /\ (forall k, ~ In k l -> a k = act d k) /\
  match r with
  | Some (k, h) => In k ks /\ a k = true /\ act d k = true /\ hand d k = Some h /\ ~ In k l /\ (forall k', In k' ks -> a k' = true -> k' = k \/ In k' (rest_of k))
  | None => forall k, In k ks -> a k = false
  end.
Proof.
  intros d ks l a r W. induction W as [d a Ha|d k ks h a A H Ha|d k ks l a r A W IH|d k ks l a r A H W IH]; intros C.
  - split; [intros k []|]. split; [constructor|]. split; [intros k []|]. split; [auto|intros k []].
  - split; [intros k' []|]. split; [constructor|]. split; [intros k' []|]. split; [auto|]. split; [now left|]. rewrite Ha. do 3 (split; [assumption|]).
    split; [intros []|]. intros k' [->|I] _; [now left|right]. destruct (chain_tail _ _ C) as (<- & _). exact I.
  - destruct (chain_tail _ _ C) as (Ek & Nk & C'). destruct (IH C') as (I1 & I2 & I3 & I4 & I5).
    split; [intros k' I; destruct (I1 k' I) as (? & ?); split; [now right|easy]|]. split; [exact I2|]. split; [exact I3|]. split; [exact I4|].
    assert (Hk : ~ In k l) by (intros I; destruct (I1 k I) as (_ & Q & _); congruence).
    destruct r as [[k1 h1]|].
    + destruct I5 as (J1 & J2 & J3 & J4 & J5 & J6). split; [now right|]. do 4 (split; [assumption|]).
      intros k' [<-|I] Q; [|now apply J6]. rewrite (I4 _ Hk) in Q. congruence.
    + intros k' [<-|I]; [rewrite (I4 _ Hk); exact A|now apply I5].
  - destruct (chain_tail _ _ C) as (Ek & Nk & C'). destruct (IH C') as (I1 & I2 & I3 & I4 & I5). cbn [with_act act hand] in *.
    assert (Hk : ~ In k l) by (intros I; destruct (I1 k I) as (_ & Q & _); now rewrite upk_same in Q).
    split. { intros k' I. apply in_app_iff in I as [I|[<-|[]]]; [|now split; [left|]]. destruct (I1 k' I) as (Q1 & Q2 & Q3).
      split; [now right|]. split; [|exact Q3]. rewrite upk_other in Q2; [exact Q2|]. intros ->. now apply Hk. }
    split. { apply NoDup_rev in I2. rewrite <- (rev_involutive (l ++ [k])), rev_app_distr. apply NoDup_rev. cbn. constructor; [now rewrite <- in_rev|exact I2]. }
    split. { intros k' I. apply in_app_iff in I as [I|[<-|[]]]; [now apply I3|]. rewrite (I4 _ Hk). apply upk_same. }
    split. { intros k' I. rewrite in_app_iff in I. rewrite I4 by (intros Q; apply I; now left). apply upk_other. intros ->. apply I. right. now left. }
    destruct r as [[k1 h1]|].
    + destruct I5 as (J1 & J2 & J3 & J4 & J5 & J6). assert (N1 : k <> k1) by (intros ->; now rewrite upk_same in J3).
      split; [now right|]. split; [exact J2|]. split; [now rewrite upk_other in J3 by exact N1|]. split; [exact J4|].
      split. { rewrite in_app_iff. intros [I|[I|[]]]; [now apply J5|now apply N1]. }
      intros k' [<-|I] Q; [|now apply J6]. rewrite (I4 _ Hk), upk_same in Q. discriminate.
    + intros k' [<-|I]; [rewrite (I4 _ Hk); apply upk_same|now apply I5].
Qed.

(** ** Histories *)
Definition about (e : event) : option nat :=
  match e with
  | WasSet fd _ _ _ _ _ | Cleared fd | TimeoutHandler fd _ | Served fd | Called fd _ _ | Ignored fd _ | Expired fd _ _ | Reported fd _ => Some fd
  | NoneDue _ | Polled => None
  end.
Definition elsewhere (fd : nat) (e : event) : Prop := about e <> Some fd.
Lemma elsewhere_all : forall fd e h, Forall (elsewhere fd) e ->
  timeout_handler (e ++ h) fd = timeout_handler h fd /\ due (e ++ h) fd = due h fd /\
  forall k, registered (e ++ h) fd k = registered h fd k /\ pending (e ++ h) fd k = pending h fd k /\ shots (e ++ h) fd k = shots h fd k /\ wanted (e ++ h) fd k = wanted h fd k.
Proof.
  intros fd e h F. induction F as [|x e X F IH]; [cbn; intuition|]. destruct IH as (I1 & I2 & I3). unfold elsewhere in X.
  destruct x; cbn [about app timeout_handler due registered pending shots wanted] in *; unfold is; rewrite ?I1, ?I2;
    try (assert (N : Nat.eqb fd0 fd = false) by (apply Nat.eqb_neq; congruence); rewrite N);
    (split; [reflexivity|]; split; [reflexivity|]; intros k1; destruct (I3 k1) as (-> & -> & -> & ->); cbn [andb orb negb]; auto).
Qed.
Lemma ignored_history : forall fd l h,
  timeout_handler (map (Ignored fd) l ++ h) fd = timeout_handler h fd /\ due (map (Ignored fd) l ++ h) fd = due h fd /\
  forall k, registered (map (Ignored fd) l ++ h) fd k = registered h fd k /\ shots (map (Ignored fd) l ++ h) fd k = shots h fd k /\ wanted (map (Ignored fd) l ++ h) fd k = wanted h fd k /\
    (In k l -> pending (map (Ignored fd) l ++ h) fd k = false) /\ (~ In k l -> pending (map (Ignored fd) l ++ h) fd k = pending h fd k).
Proof.
  intros fd l h. induction l as [|x l (I1 & I2 & I3)]; [cbn; intuition|]. cbn [map app timeout_handler due registered pending shots wanted]. split; [exact I1|]. split; [exact I2|].
  intros k. destruct (I3 k) as (J1 & J2 & J3 & J4 & J5). do 3 (split; [assumption|]). unfold is. rewrite Nat.eqb_refl. cbn [andb].
  destruct (kind_eqb x k) eqn:E; cbn [negb andb].
  - apply kind_eqb_eq in E as ->. split; [reflexivity|]. intros N. elim N. now left.
  - assert (x <> k) by (intros ->; now rewrite kind_eqb_refl in E). split; [intros [|I]; [congruence|auto]|]. intros N. apply J5. intros I. apply N. now right.
Qed.
Lemma told_history : forall fd ev h,
  timeout_handler (told fd ev ++ h) fd = timeout_handler h fd /\ due (told fd ev ++ h) fd = due h fd /\
  forall k, registered (told fd ev ++ h) fd k = registered h fd k /\ shots (told fd ev ++ h) fd k = shots h fd k /\ wanted (told fd ev ++ h) fd k = wanted h fd k /\
    pending (told fd ev ++ h) fd k = ev k || pending h fd k.
Proof.
  intros fd ev h. unfold told. destruct (ev Err) eqn:E1, (ev Send) eqn:E2, (ev Recv) eqn:E3;
    cbn [app timeout_handler due registered pending shots wanted]; unfold is; rewrite ?Nat.eqb_refl; cbn [andb]; (split; [reflexivity|]; split; [reflexivity|]; intros k; do 3 (split; [reflexivity|]));
    destruct k; cbn [kind_eqb orb]; rewrite ?E1, ?E2, ?E3; cbn [orb]; rewrite ?orb_true_r; reflexivity.
Qed.

(** ** A report *)
Definition frame_of (d d' : desc) : Prop :=
  gen d' = gen d /\ thand d' = thand d /\ deadline d' = deadline d /\ in_process d' = in_process d /\ is_clear d' = is_clear d /\ forall k, hand d' k = hand d k.
Definition grown (d : desc) (w : watch) (d' : desc) (w' : watch) : Prop :=
  frame_of d d' /\ in_active d' = in_active d /\
  (forall k, act d' k = act d k /\ once d' k = once d k /\ (want d k = true -> want d' k = true) /\ (want d' k = true -> want d k = true \/ once d k = true)) /\
  (data_ptr w' = data_ptr w \/ data_ptr w' = gen d) /\ (forall k, mask w' k = true -> mask w k = true \/ want d' k = true) /\
  ((forall k, once d k = false) -> (forall k, want d' k = want d k) /\ w' = w).
Lemma grown_refl : forall d w, grown d w d w.
Proof. intros d w. unfold grown, frame_of. intuition. Qed.
Lemma grown_trans : forall d w d1 w1 d2 w2, grown d w d1 w1 -> grown d1 w1 d2 w2 -> grown d w d2 w2.
Proof.
  unfold grown, frame_of. intros d w d1 w1 d2 w2 ((A1 & A2 & A3 & A4 & A5 & A6) & A7 & A8 & A9 & A10 & A11) ((B1 & B2 & B3 & B4 & B5 & B6) & B7 & B8 & B9 & B10 & B11).
  split. { do 5 (split; [congruence|]). intros k. rewrite B6. apply A6. }
  split; [congruence|].
  split. { intros k. destruct (A8 k) as (P1 & P2 & P3 & P4), (B8 k) as (Q1 & Q2 & Q3 & Q4). split; [congruence|]. split; [congruence|]. split; [auto|].
    intros W. destruct (Q4 W) as [X|X]; [auto|]. right. congruence. }
  split. { destruct B9 as [->| ->]; [exact A9|right; exact A1]. }
  split. { intros k M. destruct (B10 k M) as [X|X]; [|now right]. destruct (A10 k X) as [Y|Y]; [now left|right]. now apply (B8 k). }
  intros O. destruct (A11 O) as (P & ->). destruct B11 as (Q & ->); [intros k; destruct (A8 k) as (_ & -> & _); apply O|]. split; [intros k; now rewrite Q, P|reflexivity].
Qed.
Lemma lnote_grown : forall ev d w x k, in_active d = true -> exists d' w', lnote ev (d, Some w, x) k = (d', Some w', x) /\ grown d w d' w'.
Proof.
  intros ev d w x k A. unfold lnote. destruct (ev k) eqn:E; cbn [negb]; [|exists d, w; split; [reflexivity|apply grown_refl]].
  rewrite A. cbn [orb]. destruct (once d k && negb (act d k)) eqn:O; [|exists d, w; split; [reflexivity|apply grown_refl]].
  apply andb_true_iff in O as (O & _). unfold lappend.
  assert (S : some_of (fun k0 => want d k0 || only k k0) = true) by (unfold some_of, only; destruct k; cbn; rewrite ?orb_true_r; reflexivity).
  cbn [want gen]. rewrite S. do 2 eexists. split; [reflexivity|].
  unfold grown, frame_of. cbn [gen thand deadline in_process is_clear in_active hand act once want data_ptr mask].
  split. { do 5 (split; [reflexivity|]). intros k'. unfold only. destruct (kind_eqb k k') eqn:K; [apply kind_eqb_eq in K as ->; reflexivity|reflexivity]. }
  split; [reflexivity|].
  split. { intros k'. unfold only. destruct (kind_eqb k k') eqn:K; [apply kind_eqb_eq in K as <-|]; rewrite ?O; cbn [andb orb]; rewrite ?orb_true_r, ?orb_false_r; intuition. }
  split; [now right|]. split; [intros k' ?; now right|]. intros N. rewrite N in O. discriminate.
Qed.
Definition disarmed (w : watch) : watch := if once_only w then mkW (mask w) true false (data_ptr w) else w.
Lemma lreport_active : forall d w ev, in_active d = true -> exists d' w', lreport d w ev = (d', Some w') /\ grown d (disarmed w) d' w'.
Proof.
  intros d w ev A. unfold lreport. fold (disarmed w).
  destruct (lnote_grown ev d (disarmed w) false Recv A) as (d1 & w1 & -> & G1). assert (A1 : in_active d1 = true) by (destruct G1 as (_ & -> & _); exact A).
  destruct (lnote_grown ev d1 w1 false Send A1) as (d2 & w2 & -> & G2). assert (A2 : in_active d2 = true) by (destruct G2 as (_ & -> & _); exact A1).
  destruct (lnote_grown ev d2 w2 false Err A2) as (d3 & w3 & -> & G3). assert (A3 : in_active d3 = true) by (destruct G3 as (_ & -> & _); exact A2).
  rewrite A3. cbn [orb]. exists d3, w3. split; [reflexivity|]. apply (grown_trans _ _ d2 w2); [apply (grown_trans _ _ d1 w1); assumption|assumption].
Qed.
Definition used_up (d : desc) (ev : kset) : bool := ev Recv && once d Recv || ev Send && once d Send || ev Err && once d Err.
Lemma lnote_waiting : forall ev d w x k, in_active d = false -> in_process d = false -> exists d', lnote ev (d, w, x) k = (d', w, x || ev k && once d k) /\ frame_of d d' /\ in_active d' = false /\
  forall k', act d' k' = act d k' || kind_eqb k k' && ev k /\ once d' k' = once d k' && negb (kind_eqb k k' && ev k) /\ want d' k' = want d k' && negb (kind_eqb k k' && ev k && once d k').
Proof.
  intros ev d w x k A P. unfold lnote. destruct (ev k) eqn:E; cbn [negb].
  - rewrite A, P. cbn [orb andb]. eexists. split; [reflexivity|]. unfold frame_of. cbn [gen thand deadline in_process is_clear in_active hand act once want].
    split; [auto 10|]. split; [reflexivity|]. intros k'. unfold upk. destruct (kind_eqb k k') eqn:K; [apply kind_eqb_eq in K as <-|]; destruct (once d k) eqn:O; rewrite ?O, ?kind_eqb_refl, ?K;
      cbn [andb orb negb]; rewrite ?andb_true_r, ?andb_false_r, ?orb_true_r, ?orb_false_r; auto.
  - exists d. cbn [andb]. rewrite orb_false_r. split; [reflexivity|]. split; [unfold frame_of; auto 10|]. split; [exact A|].
    intros k'. rewrite andb_false_r. cbn [andb negb]. now rewrite orb_false_r, !andb_true_r.
Qed.
Lemma frame_of_trans : forall a b c, frame_of a b -> frame_of b c -> frame_of a c.
Proof.
  unfold frame_of. intros a b c (A1 & A2 & A3 & A4 & A5 & A6) (B1 & B2 & B3 & B4 & B5 & B6). do 5 (split; [congruence|]). intros k. rewrite B6. apply A6.
Qed.
Lemma lreport_waiting : forall d w ev, in_active d = false -> in_process d = false -> exists d' w', lreport d w ev = (d', Some w') /\ frame_of d d' /\ in_active d' = true /\
  (forall k, act d' k = act d k || ev k /\ once d' k = once d k && negb (ev k) /\ want d' k = want d k && negb (ev k && once d k)) /\
  (if used_up d ev then data_ptr w' = gen d /\ (forall k, mask w' k = want d' k) else w' = disarmed w).
Proof.
  intros d w ev A P. unfold lreport. fold (disarmed w).
  destruct (lnote_waiting ev d (Some (disarmed w)) false Recv A P) as (d1 & -> & F1 & A1 & K1). assert (P1 : in_process d1 = false) by (destruct F1 as (_ & _ & _ & -> & _); exact P).
  match goal with |- context [lnote ev (d1, _, ?x) Send] => destruct (lnote_waiting ev d1 (Some (disarmed w)) x Send A1 P1) as (d2 & -> & F2 & A2 & K2) end.
  assert (P2 : in_process d2 = false) by (destruct F2 as (_ & _ & _ & -> & _); exact P1).
  match goal with |- context [lnote ev (d2, _, ?x) Err] => destruct (lnote_waiting ev d2 (Some (disarmed w)) x Err A2 P2) as (d3 & -> & F3 & A3 & K3) end.
  assert (P3 : in_process d3 = false) by (destruct F3 as (_ & _ & _ & -> & _); exact P2).
  rewrite A3, P3. cbn [orb].
  assert (X : ev Recv && once d Recv || ev Send && once d1 Send || ev Err && once d2 Err = used_up d ev).
  { unfold used_up. destruct (K1 Send) as (_ & -> & _), (K2 Err) as (_ & -> & _), (K1 Err) as (_ & -> & _). cbn [kind_eqb andb negb]. now rewrite !andb_true_r. }
  rewrite X. exists (with_marks d3 false (is_clear d3) true), (if used_up d ev then mkW (want d3) (some_of (once d3)) true (gen d3) else disarmed w).
  split; [destruct (used_up d ev); reflexivity|].
  assert (F : frame_of d d3) by (apply (frame_of_trans _ d2); [apply (frame_of_trans _ d1)|]; assumption).
  split. { destruct F as (Q1 & Q2 & Q3 & Q4 & Q5 & Q6). unfold frame_of. cbn [with_marks gen thand deadline in_process is_clear hand]. rewrite P. auto 10. }
  split; [reflexivity|]. cbn [with_marks act once want]. split.
  { intros k. destruct (K1 k) as (U1 & U2 & U3), (K2 k) as (V1 & V2 & V3), (K3 k) as (-> & -> & ->). rewrite V1, V2, V3, U1, U2, U3.
    destruct k; cbn [kind_eqb andb orb negb]; rewrite ?andb_true_r, ?orb_false_r; auto. }
  destruct (used_up d ev); [|reflexivity]. cbn [data_ptr mask]. split; [destruct F as (-> & _); reflexivity|reflexivity].
Qed.

(** ** The steps of a descriptor keep what is known of it *)
Definition call (fd : nat) (r : option (kind * nat)) : list event := match r with Some (k, hd) => [Called fd k hd] | None => [] end.
Lemma calls_history : forall fd r l h,
  timeout_handler (call fd r ++ map (Ignored fd) l ++ h) fd = timeout_handler h fd /\ due (call fd r ++ map (Ignored fd) l ++ h) fd = due h fd /\
  forall k, registered (call fd r ++ map (Ignored fd) l ++ h) fd k = registered h fd k /\ wanted (call fd r ++ map (Ignored fd) l ++ h) fd k = wanted h fd k /\
    (In k l -> pending (call fd r ++ map (Ignored fd) l ++ h) fd k = false) /\
    (~ In k l -> (forall hd, r <> Some (k, hd)) -> pending (call fd r ++ map (Ignored fd) l ++ h) fd k = pending h fd k) /\
    ((forall hd, r <> Some (k, hd)) -> shots (call fd r ++ map (Ignored fd) l ++ h) fd k = shots h fd k) /\
    (forall hd, r = Some (k, hd) -> shots (call fd r ++ map (Ignored fd) l ++ h) fd k = option_map pred (shots h fd k) /\ pending (call fd r ++ map (Ignored fd) l ++ h) fd k = false).
Proof.
  intros fd r l h. destruct (ignored_history fd l h) as (I1 & I2 & I3). destruct r as [[k0 hd0]|]; cbn [call app timeout_handler due registered wanted pending shots];
    (split; [exact I1|]; split; [exact I2|]; intros k; destruct (I3 k) as (J1 & J2 & J3 & J4 & J5); split; [exact J1|]; split; [exact J3|]).
  - unfold is. rewrite Nat.eqb_refl. cbn [andb]. destruct (kind_eqb k0 k) eqn:E; cbn [negb andb].
    + apply kind_eqb_eq in E as ->. split; [reflexivity|]. split; [intros _ N; elim (N hd0); reflexivity|]. split; [intros N; elim (N hd0); reflexivity|].
      intros hd _. rewrite J2. auto.
    + split; [exact J4|]. split; [auto|]. split; [auto|]. intros hd Q. injection Q as -> ->. now rewrite kind_eqb_refl in E.
  - split; [exact J4|]. split; [auto|]. split; [auto|]. intros hd Q. discriminate.
Qed.
Lemma some_inj : forall {A} (x y : A), Some x = Some y -> x = y.
Proof. congruence. Qed.
Lemma lappend_watch : forall d f o hd m w d' w' x, lappend d f o hd m w = (d', w') -> w' = Some x -> w = Some x \/ x = mkW (want d') o true (gen d).
Proof.
  intros d f o hd m w d' w' x E X. unfold lappend in E. injection E as <- <-. destruct (some_of _); [|now left]. destruct w as [w0|], m; cbn [want gen] in *; [right; congruence|left; congruence|left; congruence|right; congruence].
Qed.
Lemma gives_up_frame : forall b d, frame_of d (gives_up b d) /\ in_active (gives_up b d) = in_active d /\ (forall k, want (gives_up b d) k = want d k) /\ (forall k, once (gives_up b d) k = once d k) /\
  (forall k, act (gives_up b d) k = true -> act d k = true) /\ (b = false -> is_clear d = false -> gives_up b d = d) /\ (is_clear d = true -> forall k, act (gives_up b d) k = false).
Proof.
  intros b d. unfold gives_up, frame_of. destruct (is_clear d) eqn:C, b; cbn [orb with_act gen thand deadline in_process is_clear in_active hand want once act]; repeat (split; [easy|]); try rewrite C; easy.
Qed.

Ltac hist := cbn [app registered timeout_handler due pending shots wanted]; unfold is; rewrite ?Nat.eqb_refl; cbn [andb orb negb].
Lemma good_step : forall quick bound fd h od w b e od' w' b', good h fd od w b -> lstep quick bound fd h od w b e od' w' b' -> good (e ++ h) fd od' w' b'.
Proof.
  intros quick bound fd h od w b e od' w' b' G L. destruct L as [g od w b f o a t hd d w' E|od w b od' w' E|d w b hd C|d w brk l a r od' w' b' d1 A Q E W R|d w k0 brk l a r od' w' b' d1 Q E W R|d w od' w' E|d w Q|d w now od' w' b' d1 Q P E R|d w ev d' w' Q A MR MS E].
  - (* set *)
    unfold lset in E. destruct od as [d0|]; cbn [good] in G.
    + destruct G as (G1 & G2 & G3 & G4 & G5 & G6).
      destruct (is_clear d0) eqn:C.
      * destruct a; [discriminate|]. destruct G6 as (K1 & K2 & K3).
        assert (w = None) as -> by (destruct w as [w0|]; [|reflexivity]; destruct (G4 w0 eq_refl); congruence).
        apply some_inj in E. assert (LW := fun x => lappend_watch _ _ _ _ _ _ _ _ x E). unfold lappend in E. injection E as <- <-.
        unfold good. destruct t; cbn [set_timeout blank with_deadline gen want once act hand thand deadline in_process is_clear in_active]; hist;
          (split; [exact G1|]; split; [discriminate|]; split; [discriminate|]; split; [intros x X; destruct (LW x X) as [|Z]; [discriminate|]; rewrite Z; split; reflexivity|];
           split; [congruence|]; split; [congruence|]; intros k; split; [destruct (f k); [reflexivity|symmetry; apply K3]|discriminate]).
      * destruct G6 as (K1 & K2).
        assert (exists dd, lappend (set_timeout dd t) f o hd true w = (d, w') /\ gen dd = gen d0 /\ act dd = act d0 /\ hand dd = hand d0 /\ thand dd = thand d0 /\ deadline dd = deadline d0 /\ in_process dd = in_process d0 /\ is_clear dd = false /\ in_active dd = in_active d0) as (dd & E' & D1 & D2 & D3 & D4 & D5 & D6 & D7 & D8).
        { destruct a; apply some_inj in E; eexists; (split; [exact E|]); cbn; rewrite ?C; auto 10. }
        assert (LW := fun x => lappend_watch _ _ _ _ _ _ _ _ x E'). unfold lappend in E'. injection E' as <- <-.
        unfold good. destruct t; cbn [set_timeout with_deadline gen want once act hand thand deadline in_process is_clear in_active] in *; hist; rewrite ?D1, ?D2, ?D3, ?D4, ?D5, ?D6, ?D7, ?D8 in *;
          (split; [exact G1|]; split; [discriminate|]; split; [exact G3|]; split; [intros x X; destruct (LW x X) as [Z|Z]; [now apply G4|]; rewrite Z; split; reflexivity|];
           split; [congruence|]; split; [congruence|]; intros k; split; [destruct (f k); [reflexivity|apply K2]|apply K2]).
    + destruct G as (-> & -> & G3 & G4 & G5). apply some_inj in E. assert (LW := fun x => lappend_watch _ _ _ _ _ _ _ _ x E). unfold lappend in E. injection E as <- <-.
      unfold good. destruct t; cbn [set_timeout blank with_deadline gen want once act hand thand deadline in_process is_clear in_active]; hist;
        (split; [reflexivity|]; split; [discriminate|]; split; [discriminate|]; split; [intros x X; destruct (LW x X) as [|Z]; [discriminate|]; rewrite Z; split; reflexivity|];
         split; [congruence|]; split; [congruence|]; intros k; split; [destruct (f k); [reflexivity|symmetry; apply G5]|discriminate]).
  - (* clear *)
    unfold lclear in E. destruct od as [d0|]; cbn [good] in G.
    + destruct G as (G1 & G2 & G3 & G4 & G5 & G6). destruct (in_process d0) eqn:P; injection E as <- <-; unfold good; cbn [with_marks with_deadline gen act hand thand deadline in_process is_clear in_active]; hist.
      * split; [destruct b as [[g y]|]; [easy|discriminate]|]. split; [reflexivity|]. split; [exact G3|]. split; [discriminate|]. auto 10.
      * destruct b as [[g y]|]; [destruct G1; congruence|]. auto 10.
    + destruct G as (-> & -> & G3 & G4 & G5). injection E as <- <-. unfold good. hist. auto 10.
  - (* handler *)
    cbn [good] in *. destruct G as (G1 & G2 & G3 & G4 & G5 & G6). cbn [gen act hand thand deadline in_process is_clear in_active]. hist. rewrite C in *.
    do 5 (split; [assumption|]). split; [reflexivity|]. apply G6.
  - (* go *)
    cbn [good] in G. destruct G as (G1 & G2 & G3 & G4 & G5 & G6). assert (C : is_clear d = false) by (destruct (is_clear d); [rewrite G2 in G1 by reflexivity; discriminate|reflexivity]).
    rewrite C in G6. destruct G6 as (K1 & K2).
    destruct (gives_up_frame brk (with_marks (with_deadline d None) true (is_clear d) false)) as (F & F1 & _ & _ & F4 & _). rewrite <- E in *. clear E.
    destruct F as (B1 & B2 & B3 & B4 & B5 & B6). cbn [with_marks with_deadline gen thand deadline in_process is_clear hand in_active act] in *.
    destruct (walk_facts _ _ _ _ _ W (or_introl eq_refl)) as (W1 & W2 & W3 & W4 & W5). fold (call fd r). rewrite <- !app_assoc. cbn [app].
    destruct (calls_history fd r l (Served fd :: h)) as (H1 & H2 & H3).
    assert (act_pending : forall k, ~ In k l -> (forall hd, r <> Some (k, hd)) -> a k = true -> pending (call fd r ++ map (Ignored fd) l ++ Served fd :: h) fd k = true).
    { intros k N N' T. destruct (H3 k) as (_ & _ & _ & -> & _); [|assumption..]. cbn [pending]. rewrite (W4 _ N) in T. destruct (K2 k) as (_ & [X|X]); [now apply F4|exact X|discriminate]. }
    destruct r as [[k hd]|].
    + destruct R as (-> & -> & ->). cbn [good with_act gen thand deadline in_process is_clear hand in_active act]. rewrite B1, B2, B3, B4, B5, F1, C, H1, H2. hist.
      split; [now split|]. do 2 (split; [discriminate|]). split; [intros x X; split; [now apply G4|reflexivity]|]. do 2 (split; [congruence|]).
      intros k'. rewrite B6. destruct (H3 k') as (-> & _). cbn [registered]. split; [apply K2|]. intros T.
      destruct (kind_dec k k') as [->|Nk]; [now right|left]. apply act_pending; [intros I; rewrite (W3 _ I) in T; discriminate|congruence|exact T].
    + destruct R as (R & ->). unfold lfinish in R. cbn [with_act is_clear] in R. rewrite B5, C in R. injection R as -> ->.
      cbn [good with_marks with_act gen thand deadline in_process is_clear hand in_active act]. rewrite B1, B2, B3, F1, H1, H2. hist.
      split; [reflexivity|]. do 2 (split; [discriminate|]). split; [intros x X; split; [now apply G4|reflexivity]|]. do 2 (split; [congruence|]).
      intros k'. rewrite B6. destruct (H3 k') as (-> & _). cbn [registered]. split; [apply K2|]. intros T. rewrite W5 in T; [discriminate|]. destruct k'; cbn; auto.
  - (* back *)
    cbn [good] in G. destruct G as ((_ & G1) & G2 & G3 & G4 & G5 & G6).
    destruct (gives_up_frame brk (with_act d (upk (act d) k0 false))) as (F & F1 & _ & _ & F4 & _ & F6). rewrite <- E in *. clear E.
    destruct F as (B1 & B2 & B3 & B4 & B5 & B6). cbn [with_act gen thand deadline in_process is_clear hand in_active act] in *.
    destruct (walk_facts _ _ _ _ _ W (or_intror (ex_intro _ k0 eq_refl))) as (W1 & W2 & W3 & W4 & W5). fold (call fd r). rewrite <- !app_assoc. cbn [app].
    destruct (calls_history fd r l h) as (H1 & H2 & H3). destruct (is_clear d) eqn:C.
    { specialize (F6 eq_refl). assert (l = []) as -> by (destruct l as [|k l]; [reflexivity|]; destruct (W1 k) as (_ & X & _); [now left|]; rewrite F6 in X; discriminate).
      destruct r as [[k hd]|]; [destruct W5 as (_ & _ & X & _); rewrite F6 in X; discriminate|]. destruct R as (R & ->). unfold lfinish in R. cbn [with_act is_clear] in R. rewrite B5 in R. injection R as -> ->.
      cbn [call map app good]. destruct G6 as (K1 & K2 & K3). auto 10. }
    destruct G6 as (K1 & K2).
    assert (act_pending : forall k, (forall hd, r <> Some (k, hd)) -> a k = true -> pending (call fd r ++ map (Ignored fd) l ++ h) fd k = true).
    { intros k N' T. assert (N : ~ In k l) by (intros I; rewrite (W3 _ I) in T; discriminate). destruct (H3 k) as (_ & _ & _ & -> & _); [|assumption..]. rewrite (W4 _ N) in T. apply F4 in T.
      destruct (kind_dec k0 k) as [->|Nk]; [rewrite upk_same in T; discriminate|]. rewrite upk_other in T by exact Nk. destruct (K2 k) as (_ & [X|X]); [exact T|exact X|congruence]. }
    destruct r as [[k hd]|].
    + destruct R as (-> & -> & ->). cbn [good with_act gen thand deadline in_process is_clear hand in_active act]. rewrite B1, B2, B3, B4, B5, F1, H1, H2.
      split; [now split|]. split; [discriminate|]. split; [exact G3|]. split; [intros x X; split; [now apply G4|reflexivity]|]. do 2 (split; [congruence|]).
      intros k'. rewrite B6. destruct (H3 k') as (-> & _). split; [apply K2|]. intros T.
      destruct (kind_dec k k') as [->|Nk]; [now right|left]. apply act_pending; [congruence|exact T].
    + destruct R as (R & ->). unfold lfinish in R. cbn [with_act is_clear] in R. rewrite B5 in R. injection R as -> ->.
      cbn [good with_marks with_act gen thand deadline in_process is_clear hand in_active act]. rewrite B1, B2, B3, F1, H1, H2.
      split; [reflexivity|]. split; [discriminate|]. split; [reflexivity|]. split; [intros x X; split; [now apply G4|reflexivity]|]. do 2 (split; [congruence|]).
      intros k'. rewrite B6. destruct (H3 k') as (-> & _). split; [apply K2|]. intros T. left. apply act_pending; [congruence|exact T].
  - (* return *)
    cbn [good app] in *. destruct G as ((_ & G1) & G2 & G3 & G4 & G5 & G6). unfold lfinish in E. destruct (is_clear d) eqn:C; injection E as -> ->; [cbn [good]; destruct G6 as (K1 & K2 & K3); auto 10|].
    cbn [good with_marks with_act gen thand deadline in_process is_clear hand in_active act]. destruct G6 as (K1 & K2).
    split; [reflexivity|]. split; [discriminate|]. split; [reflexivity|]. split; [intros x X; split; [now apply G4|reflexivity]|]. split; [exact G5|]. split; [exact K1|].
    intros k. destruct (K2 k) as (X & Y). split; [exact X|]. intros T. destruct (Y T) as [Z|Z]; [now left|congruence].
  - (* look *)
    cbn [good app] in *. destruct G as (G1 & G2 & G3 & G4 & G5 & G6). cbn [with_marks gen thand deadline in_process is_clear hand in_active act]. repeat (split; [assumption|]). split; [discriminate|]. auto.
  - (* expire *)
    clear P. cbn [good] in G. destruct G as (G1 & G2 & G3 & G4 & G5 & G6). assert (C : is_clear d = false) by (destruct (is_clear d); [rewrite G2 in G1 by reflexivity; discriminate|reflexivity]).
    rewrite C in *. destruct G6 as (K1 & K2). destruct (thand d) eqn:T.
    + destruct R as (-> & -> & ->). rewrite E. cbn [good with_marks with_deadline gen thand deadline in_process is_clear hand in_active act]. hist.
      split; [now split|]. do 2 (split; [discriminate|]). split; [intros x X; split; [now apply G4|reflexivity]|]. split; [reflexivity|]. split; [congruence|].
      intros k. destruct (K2 k) as (X & Y). split; [exact X|]. intros Z. destruct (Y Z); [now left|discriminate].
    + destruct R as (R & ->). rewrite E in R. unfold lfinish in R. cbn [with_marks with_deadline is_clear] in R. injection R as -> ->. cbn [good with_marks with_deadline gen thand deadline in_process is_clear hand in_active act]. hist.
      split; [reflexivity|]. do 2 (split; [discriminate|]). split; [intros x X; split; [now apply G4|reflexivity]|]. split; [reflexivity|]. split; [congruence|].
      intros k. destruct (K2 k) as (X & Y). split; [exact X|]. intros Z. destruct (Y Z); [now left|discriminate].
  - (* report *)
    cbn [good] in *. destruct G as (G1 & G2 & G3 & G4 & G5 & G6). destruct (G4 w eq_refl) as (DP & C). rewrite C in *. destruct G6 as (K1 & K2).
    destruct (told_history fd ev h) as (H1 & H2 & H3).
    assert (DD : data_ptr (disarmed w) = data_ptr w) by (unfold disarmed; destruct (once_only w); reflexivity).
    destruct (in_active d) eqn:AA.
    + destruct (lreport_active d w ev AA) as (d2 & w2 & E2 & F & B7 & B8 & B9 & B10 & B11). rewrite E2 in E. injection E as <- <-. destruct F as (B1 & B2 & B3 & B4 & B5 & B6).
      rewrite H1, H2, B4, B5, B7, C, AA. split; [exact G1|]. split; [discriminate|]. split; [auto|]. split; [intros x X; injection X as <-; split; [rewrite B1; destruct B9; congruence|reflexivity]|].
      split; [congruence|]. split; [congruence|]. intros k. destruct (H3 k) as (-> & _ & _ & ->). rewrite B6. split; [apply K2|]. intros T. destruct (B8 k) as (X & _). rewrite X in T.
      destruct (K2 k) as (_ & [Y|Y]); [exact T| |discriminate]. rewrite Y. left. apply orb_true_r.
    + destruct (lreport_waiting d w ev AA G1) as (d2 & w2 & E2 & F & B7 & B8 & B9). rewrite E2 in E. injection E as <- <-. destruct F as (B1 & B2 & B3 & B4 & B5 & B6).
      rewrite H1, H2, B4, B5, B7, C. split; [exact G1|]. split; [discriminate|]. split; [auto|]. split.
      { intros x X. injection X as <-. split; [|reflexivity]. rewrite B1. destruct (used_up d ev); [apply B9|]. rewrite B9. congruence. }
      split; [congruence|]. split; [congruence|]. intros k. destruct (H3 k) as (-> & _ & _ & ->). rewrite B6. split; [apply K2|]. intros T. destruct (B8 k) as (X & _). rewrite X in T. left.
      apply orb_true_iff in T as [T|T]; [|now rewrite T]. destruct (K2 k) as (_ & [Y|Y]); [exact T| |discriminate]. rewrite Y. apply orb_true_r.
Qed.
Lemma lset_shape : forall g od w f o a t hd d w', lset g od w f o a t hd = Some (d, w') -> exists dd m, lappend (set_timeout dd t) f o hd m w = (d, w') /\ is_clear dd = false /\
  match od with
  | None => m = false /\ dd = blank g false
  | Some d0 => if is_clear d0 then a = false /\ m = false /\ dd = blank (gen d0) (in_process d0) else m = true /\ gen dd = gen d0 /\ act dd = act d0 /\ in_active dd = in_active d0 /\
      (forall k, once dd k = a && once d0 k /\ want dd k = a && want d0 k)
  end.
Proof.
  intros g od w f o a t hd d w' E. unfold lset in E. destruct od as [d0|].
  - destruct (is_clear d0) eqn:C; destruct a; try discriminate; apply some_inj in E; do 2 eexists; (split; [exact E|]); cbn; auto 10.
  - apply some_inj in E. do 2 eexists. split; [exact E|]. cbn. auto.
Qed.
Lemma lappend_fields : forall dd t f o hd m w d w', lappend (set_timeout dd t) f o hd m w = (d, w') ->
  gen d = gen dd /\ act d = act dd /\ is_clear d = is_clear dd /\ in_active d = in_active dd /\ (forall k, want d k = want dd k || f k) /\ (forall k, once d k = once dd k || f k && o) /\
  (if some_of (want d) then match w, m with Some _, true | None, false => w' = Some (mkW (want d) o true (gen d)) | _, _ => w' = w end else w' = w).
Proof.
  intros dd t f o hd m w d w' E. unfold lappend in E. injection E as <- <-. destruct t; cbn [set_timeout with_deadline gen act is_clear in_active want once];
    repeat (split; [reflexivity|]); destruct (some_of _), w, m; reflexivity.
Qed.
Lemma some_of_true : forall f k, f k = true -> some_of f = true.
Proof. intros f [] E; unfold some_of; rewrite E; rewrite ?orb_true_r; reflexivity. Qed.

Lemma aimed_step : forall quick bound fd h od w b e od' w' b', good h fd od w b -> aimed h fd od w b -> lstep quick bound fd h od w b e od' w' b' -> aimed (e ++ h) fd od' w' b'.
Proof.
  intros quick bound fd h od w b e od' w' b' G I L. destruct L as [g od w b f o a t hd d w' E|od w b od' w' E|d w b hd C|d w brk l a r od' w' b' d1 A Q E W R|d w k0 brk l a r od' w' b' d1 Q E W R|d w od' w' E|d w Q|d w now od' w' b' d1 Q P E R|d w ev d' w' Q A MR MS E];
    intros dx k n X Cx Nk Sh.
  - (* set *)
    apply some_inj in X as <-. revert Sh. hist. intros Sh. destruct (lset_shape _ _ _ _ _ _ _ _ _ _ E) as (dd & m & E' & Cd & M). destruct (lappend_fields _ _ _ _ _ _ _ _ _ E') as (L1 & L2 & L3 & L4 & L5 & L6 & L7).
    destruct (f k) eqn:F.
    + destruct (o && negb (pending h fd k)) eqn:O; [|discriminate]. apply some_inj in Sh as <-. apply andb_true_iff in O as (-> & Np). apply negb_true_iff in Np.
      assert (Wk : want d k = true) by (rewrite L5, F; apply orb_true_r). rewrite (some_of_true _ _ Wk) in L7. split; [auto|]. left. split; [reflexivity|]. split; [rewrite L6, F; apply orb_true_r|]. split; [exact Wk|].
      rewrite L2, L1. destruct od as [d0|]; [|destruct M as (_ & ->); now left]. cbn [good] in G. destruct (is_clear d0); [destruct M as (_ & _ & ->); now left|].
      destruct M as (_ & -> & -> & _). destruct G as (_ & _ & _ & _ & _ & _ & K). destruct (K k) as (_ & Z). destruct (act d0 k) eqn:Ak; [|now left]. destruct (Z eq_refl); [congruence|now right].
    + destruct a; [|discriminate]. destruct od as [d0|]; [|destruct G as (_ & _ & _ & _ & K); destruct (K k) as (_ & _ & K3 & _); congruence]. cbn [good] in G.
      destruct (is_clear d0) eqn:C0; [destruct M as (M & _); discriminate|]. destruct M as (-> & M2 & M3 & M4 & M5). destruct (I d0 k n eq_refl C0 Nk Sh) as (I1 & I2).
      destruct (M5 k) as (O5 & W5). cbn [andb] in *. assert (Wk : want d k = want d0 k) by (rewrite L5, F, orb_false_r; exact W5). assert (Ok : once d k = once d0 k) by (rewrite L6, F; cbn [andb]; rewrite orb_false_r; exact O5).
      split. { intros w1 -> Mk. rewrite Wk. destruct (some_of (want d)); [|apply (I1 w1); [now symmetry|exact Mk]]. destruct w as [w0|]; [|discriminate]. injection L7 as ->. cbn [mask] in Mk. congruence. }
      rewrite Wk, Ok, L1, L2, M2, M3. exact I2.
  - (* clear *)
    revert Sh. hist. discriminate.
  - (* handler *)
    apply some_inj in X as <-. revert Sh. hist. intros Sh. apply (I d k n); auto.
  - (* go *)
    cbn [good] in G. destruct G as (G1 & G2 & G3 & G4 & G5 & G6). assert (C : is_clear d = false) by (destruct (is_clear d); [rewrite G2 in G1 by reflexivity; discriminate|reflexivity]). clear G5 G6.
    destruct (gives_up_frame brk (with_marks (with_deadline d None) true (is_clear d) false)) as (F & _ & F2 & F3 & F4 & _). rewrite <- E in *. clear E.
    destruct F as (B1 & _ & _ & _ & B5 & _). cbn [with_marks with_deadline gen want once is_clear act] in *.
    destruct (walk_facts _ _ _ _ _ W (or_introl eq_refl)) as (W1 & W2 & W3 & W4 & W5). fold (call fd r) in Sh. rewrite <- !app_assoc in Sh. cbn [app] in Sh.
    destruct (calls_history fd r l (Served fd :: h)) as (_ & _ & H3). destruct (H3 k) as (_ & _ & _ & _ & S1 & S2). cbn [shots] in S1, S2.
    assert (Sub : forall k', a k' = true -> act d k' = true). { intros k' T. apply F4. rewrite <- W4; [exact T|]. intros Y. rewrite (W3 _ Y) in T. discriminate. }
    destruct r as [[k1 hd]|].
    + destruct R as (-> & -> & ->). apply some_inj in X as <-. cbn [with_act want once act gen]. rewrite F2, F3, B1. destruct W5 as (_ & V2 & _ & _ & _ & _).
      destruct (kind_dec k1 k) as [->|N1].
      * destruct (S2 hd eq_refl) as (Z & _). rewrite Z in Sh. destruct (shots h fd k) as [n0|] eqn:S0; [|discriminate]. cbn [option_map] in Sh. apply some_inj in Sh as <-.
        destruct (I d k n0 eq_refl C Nk S0) as (I1 & I2). split; [exact I1|]. apply Sub in V2. destruct I2 as [(_ & _ & _ & [Y|Y])|[(-> & Y1 & Y2 & _)|(_ & _ & _ & [Y|Y])]]; try congruence. right. right. auto 10.
      * rewrite S1 in Sh by congruence. destruct (I d k n eq_refl C Nk Sh) as (I1 & I2). split; [exact I1|]. assert (act d k = false -> a k = false) by (destruct (a k) eqn:Ak; [apply Sub in Ak; congruence|auto]).
        destruct I2 as [(-> & Y1 & Y2 & [Y|Y])|[(-> & Y1 & Y2 & _)|(-> & Y1 & Y2 & [Y|Y])]]; try discriminate; [left; auto 10|right; left; repeat split; auto; congruence|right; right; auto 10].
    + destruct R as (R & ->). unfold lfinish in R. cbn [with_act is_clear] in R. rewrite B5, C in R. injection R as -> ->. apply some_inj in X as <-. cbn [with_marks with_act want once act gen]. rewrite F2, F3, B1.
      rewrite S1 in Sh by congruence. destruct (I d k n eq_refl C Nk Sh) as (I1 & I2). split; [exact I1|]. assert (act d k = false -> a k = false) by (destruct (a k) eqn:Ak; [apply Sub in Ak; congruence|auto]).
      destruct I2 as [(-> & Y1 & Y2 & [Y|Y])|[(-> & Y1 & Y2 & _)|(-> & Y1 & Y2 & [Y|Y])]]; try discriminate; [left; auto 10|right; left; repeat split; auto; congruence|right; right; auto 10].
  - (* back *)
    cbn [good] in G. destruct G as ((_ & G1) & G2 & G3 & G4 & G5 & G6). clear G5 G6.
    destruct (gives_up_frame brk (with_act d (upk (act d) k0 false))) as (F & _ & F2 & F3 & F4 & _ & F6). rewrite <- E in *. clear E.
    destruct F as (B1 & _ & _ & _ & B5 & _). cbn [with_act gen want once is_clear act] in *.
    destruct (walk_facts _ _ _ _ _ W (or_intror (ex_intro _ k0 eq_refl))) as (W1 & W2 & W3 & W4 & W5). fold (call fd r) in Sh. rewrite <- !app_assoc in Sh. cbn [app] in Sh.
    destruct (calls_history fd r l h) as (_ & _ & H3). destruct (H3 k) as (_ & _ & _ & _ & S1 & S2).
    assert (Sub : forall k', a k' = true -> act d k' = true /\ k0 <> k').
    { intros k' T. assert (T' : act d1 k' = true) by (rewrite <- W4; [exact T|]; intros Y; rewrite (W3 _ Y) in T; discriminate). apply F4 in T'.
      destruct (kind_dec k0 k') as [->|N0]; [rewrite upk_same in T'; discriminate|]. rewrite upk_other in T' by exact N0. auto. }
    destruct (is_clear d) eqn:C.
    { destruct r as [[k1 hd]|]; [destruct W5 as (_ & _ & Z & _); rewrite F6 in Z; [discriminate|reflexivity]|]. destruct R as (R & ->). unfold lfinish in R. cbn [with_act is_clear] in R. rewrite B5 in R. injection R as -> ->. discriminate. }
    assert (FF : act d k = false \/ Some (gen d, Some k0) = Some (gen d, Some k) -> a k = false). { intros Y. destruct (a k) eqn:Ak; [|reflexivity]. apply Sub in Ak as (Z1 & Z2). destruct Y; congruence. }
    destruct r as [[k1 hd]|].
    + destruct R as (-> & -> & ->). apply some_inj in X as <-. cbn [with_act want once act gen]. rewrite F2, F3, B1. destruct W5 as (_ & V2 & _ & _ & _ & _).
      destruct (kind_dec k1 k) as [->|N1].
      * destruct (S2 hd eq_refl) as (Z & _). rewrite Z in Sh. destruct (shots h fd k) as [n0|] eqn:S0; [|discriminate]. cbn [option_map] in Sh. apply some_inj in Sh as <-.
        destruct (I d k n0 eq_refl C Nk S0) as (I1 & I2). split; [exact I1|]. destruct I2 as [(_ & _ & _ & Y)|[(-> & Y1 & Y2 & _)|(_ & _ & _ & Y)]]; [apply FF in Y; congruence| |apply FF in Y; congruence]. right. right. auto 10.
      * rewrite S1 in Sh by congruence. destruct (I d k n eq_refl C Nk Sh) as (I1 & I2). split; [exact I1|].
        destruct I2 as [(-> & Y1 & Y2 & Y)|[(-> & Y1 & Y2 & _)|(-> & Y1 & Y2 & Y)]]; [left; auto 10|right; left; repeat split; auto; congruence|right; right; auto 10].
    + destruct R as (R & ->). unfold lfinish in R. cbn [with_act is_clear] in R. rewrite B5 in R. injection R as -> ->. apply some_inj in X as <-. cbn [with_marks with_act want once act gen]. rewrite F2, F3, B1.
      rewrite S1 in Sh by congruence. destruct (I d k n eq_refl C Nk Sh) as (I1 & I2). split; [exact I1|].
      destruct I2 as [(-> & Y1 & Y2 & Y)|[(-> & Y1 & Y2 & _)|(-> & Y1 & Y2 & Y)]]; [left; auto 10|right; left; repeat split; auto; congruence|right; right; auto 10].
  - (* return *)
    unfold lfinish in E. destruct (is_clear d) eqn:C; injection E as -> ->; [discriminate|]. apply some_inj in X as <-. cbn [app with_marks want once act gen] in *. destruct (I d k n eq_refl C Nk Sh) as (I1 & I2). split; [exact I1|].
    destruct I2 as [(-> & Y1 & Y2 & [Y|Y])|[(-> & Y1 & Y2 & _)|(-> & Y1 & Y2 & [Y|Y])]]; try congruence; [left; auto 10|right; left; repeat split; auto; congruence|right; right; auto 10].
  - (* look *)
    apply some_inj in X as <-. apply (I d k n); auto.
  - (* expire *)
    revert Sh. hist. intros Sh. clear P.
    assert (Z : forall d2, od' = Some d2 -> w' = w /\ gen d2 = gen d /\ want d2 = want d /\ once d2 = once d /\ act d2 = act d /\ is_clear d2 = is_clear d /\ (b' = None \/ b' = Some (gen d, None))).
    { intros d2 Z. destruct (thand d); [destruct R as (-> & -> & ->); apply some_inj in Z as <-; rewrite E; cbn; auto 10|]. destruct R as (R & ->). rewrite E in R. unfold lfinish in R. cbn [with_marks with_deadline is_clear] in R.
      destruct (is_clear d) eqn:C; injection R as -> ->; [discriminate|]. apply some_inj in Z as <-. cbn. rewrite ?C. auto 10. }
    destruct (Z dx X) as (-> & -> & -> & -> & -> & Z6 & Z7). rewrite Z6 in Cx. destruct (I d k n eq_refl Cx Nk Sh) as (I1 & I2). split; [exact I1|].
    destruct I2 as [(-> & Y1 & Y2 & [Y|Y])|[(-> & Y1 & Y2 & _)|(-> & Y1 & Y2 & [Y|Y])]]; try congruence; [left; auto 10|right; left; repeat split; auto; destruct Z7; congruence|right; right; auto 10].
  - (* report *)
    apply some_inj in X as <-. cbn [good] in G. destruct G as (G1 & _ & _ & G4 & _). destruct (G4 w eq_refl) as (DP & C).
    destruct (told_history fd ev h) as (_ & _ & H3). destruct (H3 k) as (_ & S1 & _). rewrite S1 in Sh. destruct (I d k n eq_refl C Nk Sh) as (I1 & I2).
    assert (DM : mask (disarmed w) = mask w) by (unfold disarmed; destruct (once_only w); reflexivity).
    destruct (in_active d) eqn:AA.
    + destruct (lreport_active d w ev AA) as (d2 & w2 & E2 & F & B7 & B8 & B9 & B10 & B11). rewrite E2 in E. injection E as <- <-. destruct (B8 k) as (-> & -> & U3 & U4).
      split. { intros w1 Y Z. injection Y as <-. destruct (B10 k Z) as [V|V]; [|exact V]. apply U3. apply (I1 w); [reflexivity|congruence]. }
      destruct I2 as [(-> & Y1 & Y2 & [Y|Y])|[(-> & Y1 & Y2 & _)|(-> & Y1 & Y2 & [Y|Y])]]; try discriminate; [left; auto 10| |]; (assert (want d2 k = false) by (destruct (want d2 k); [destruct U4; congruence|reflexivity])).
      * right. left. repeat split; auto; congruence.
      * right. right. auto 10.
    + destruct (lreport_waiting d w ev AA G1) as (d2 & w2 & E2 & F & B7 & B8 & B9). rewrite E2 in E. injection E as <- <-. destruct (B8 k) as (U1 & U2 & U3). rewrite U1, U2, U3.
      assert (EV : ev k = true -> want d k = true). { intros Y. apply (I1 w); [reflexivity|]. destruct k; auto; congruence. }
      split. { intros w1 Y Z. injection Y as <-. destruct (used_up d ev) eqn:UU; [destruct B9 as (_ & B9); rewrite B9 in Z; congruence|]. rewrite B9, DM in Z. rewrite (I1 w eq_refl Z). cbn [andb].
        destruct (ev k && once d k) eqn:V; [|reflexivity]. exfalso. unfold used_up in UU. destruct k; rewrite V in UU; rewrite ?orb_true_r in UU; discriminate. }
      destruct (ev k) eqn:Ek.
      * specialize (EV eq_refl). destruct I2 as [(-> & Y1 & Y2 & [Y|Y])|[(-> & Y1 & Y2 & _)|(-> & Y1 & Y2 & [Y|Y])]]; try congruence. right. left. rewrite Y1, Y2. cbn. repeat split; congruence.
      * rewrite orb_false_r. cbn [negb andb]. rewrite !andb_true_r. destruct F as (-> & _). exact I2.
Qed.

Definition lasting (e : event) : Prop := match e with WasSet _ f o _ _ _ => o = false /\ some_of f = true | _ => True end.
Lemma watched_step : forall quick bound fd h od w b e od' w' b', good h fd od w b -> watched h fd od w -> lstep quick bound fd h od w b e od' w' b' -> Forall lasting e -> watched (e ++ h) fd od' w'.
Proof.
  intros quick bound fd h od w b e od' w' b' G I L La. destruct L as [g od w b f o a t hd d w' E|od w b od' w' E|d w b hd C|d w brk l a r od' w' b' d1 A Q E W R|d w k0 brk l a r od' w' b' d1 Q E W R|d w od' w' E|d w Q|d w now od' w' b' d1 Q P E R|d w ev d' w' Q A MR MS E];
    intros dx X Cx.
  - (* set *)
    apply some_inj in X as <-. destruct (Forall_inv La) as (-> & Sf). destruct (lset_shape _ _ _ _ _ _ _ _ _ _ E) as (dd & m & E' & Cd & M). destruct (lappend_fields _ _ _ _ _ _ _ _ _ E') as (L1 & L2 & L3 & L4 & L5 & L6 & L7).
    assert (Sw : some_of (want d) = true). { unfold some_of in *. rewrite !L5. revert Sf. destruct (f Recv), (f Send), (f Err); rewrite ?orb_true_r; cbn; rewrite ?orb_true_r; auto; discriminate. }
    rewrite Sw in L7. split; [exact Sw|].
    assert (Z : (forall k, once d k = false /\ want d k = wanted (WasSet fd f false a t hd :: h) fd k) /\ w' = Some (mkW (want d) false true (gen d))).
    { hist. destruct od as [d0|]; cbn [good] in G.
      - destruct (is_clear d0) eqn:C0.
        + destruct M as (-> & -> & Ed). destruct G as (_ & _ & _ & G4 & _ & _ & _ & K). rewrite Ed in *. destruct w as [w0|]; [destruct (G4 w0 eq_refl); congruence|]. split; [|exact L7].
          intros k. rewrite L5, L6. cbn. now rewrite andb_false_r, orb_false_r.
        + destruct M as (-> & M2 & M3 & M4 & M5). destruct (I d0 eq_refl C0) as (_ & I2 & m0 & -> & _). split; [|exact L7].
          intros k. rewrite L5, L6. destruct (M5 k) as (-> & ->), (I2 k) as (-> & ->). rewrite !andb_false_r. split; [reflexivity|]. apply orb_comm.
      - destruct G as (-> & _ & _ & _ & K). destruct M as (-> & Ed). rewrite Ed in *. split; [|exact L7]. intros k. rewrite L5, L6. destruct (K k) as (_ & _ & _ & ->). cbn. rewrite !andb_false_r, orb_false_r. auto. }
    destruct Z as (Z1 & Z2). split; [exact Z1|]. exists (want d). auto.
  - (* clear *)
    unfold lclear in E. destruct od as [d0|]; [|injection E as <- <-; discriminate]. destruct (in_process d0); injection E as <- <-; [|discriminate]. apply some_inj in X as <-. discriminate.
  - (* handler *)
    apply some_inj in X as <-. apply (I d); auto.
  - (* go *)
    cbn [good] in G. destruct G as (G1 & G2 & G3 & G4 & G5 & G6). assert (C : is_clear d = false) by (destruct (is_clear d); [rewrite G2 in G1 by reflexivity; discriminate|reflexivity]). clear G5 G6.
    destruct (gives_up_frame brk (with_marks (with_deadline d None) true (is_clear d) false)) as (F & _ & F2 & F3 & F4 & _). rewrite <- E in *. clear E.
    destruct F as (B1 & _ & _ & _ & B5 & _). cbn [with_marks with_deadline gen want once is_clear act] in *. fold (call fd r). rewrite <- !app_assoc. cbn [app].
    destruct (calls_history fd r l (Served fd :: h)) as (_ & _ & H3). destruct (I d eq_refl C) as (I1 & I2 & m & I3 & I4).
    assert (w' = w) as -> by (destruct r as [[k hd]|]; [easy|]; destruct R as (R & _); unfold lfinish in R; cbn [with_act is_clear] in R; rewrite B5, C in R; congruence).
    assert (V : gen dx = gen d /\ want dx = want d1 /\ once dx = once d1).
    { destruct r as [[k hd]|]; [destruct R as (-> & _); apply some_inj in X as <-; cbn; auto|]. destruct R as (R & _). unfold lfinish in R. cbn [with_act is_clear] in R. rewrite B5, C in R. injection R as ->.
      apply some_inj in X as <-. cbn. auto. }
    destruct V as (-> & -> & ->).
    split. { unfold some_of in *. now rewrite !F2. } split. { intros k. rewrite F2, F3. destruct (H3 k) as (_ & -> & _). apply I2. } exists m. split; [exact I3|]. intros k. rewrite F2. apply I4.
  - (* back *)
    destruct (gives_up_frame brk (with_act d (upk (act d) k0 false))) as (F & _ & F2 & F3 & F4 & _). rewrite <- E in *. clear E.
    destruct F as (B1 & _ & _ & _ & B5 & _). cbn [with_act gen want once is_clear act] in *. fold (call fd r). rewrite <- !app_assoc. cbn [app].
    destruct (calls_history fd r l h) as (_ & _ & H3).
    assert (C : is_clear d = false).
    { destruct r as [[k hd]|]; [destruct R as (-> & _); apply some_inj in X as <-; cbn in Cx; congruence|]. destruct R as (R & _). unfold lfinish in R. cbn [with_act is_clear] in R. rewrite B5 in R.
      destruct (is_clear d) eqn:C; [injection R as -> ->; discriminate|reflexivity]. }
    destruct (I d eq_refl C) as (I1 & I2 & m & I3 & I4).
    assert (w' = w) as -> by (destruct r as [[k hd]|]; [easy|]; destruct R as (R & _); unfold lfinish in R; cbn [with_act is_clear] in R; rewrite B5, C in R; congruence).
    assert (V : gen dx = gen d /\ want dx = want d1 /\ once dx = once d1).
    { destruct r as [[k hd]|]; [destruct R as (-> & _); apply some_inj in X as <-; cbn; auto|]. destruct R as (R & _). unfold lfinish in R. cbn [with_act is_clear] in R. rewrite B5, C in R. injection R as ->.
      apply some_inj in X as <-. cbn. auto. }
    destruct V as (-> & -> & ->).
    split. { unfold some_of in *. now rewrite !F2. } split. { intros k. rewrite F2, F3. destruct (H3 k) as (_ & -> & _). apply I2. } exists m. split; [exact I3|]. intros k. rewrite F2. apply I4.
  - (* return *)
    unfold lfinish in E. destruct (is_clear d) eqn:C; injection E as -> ->; [discriminate|]. apply some_inj in X as <-. apply (I d eq_refl C).
  - (* look *)
    apply some_inj in X as <-. apply (I d); auto.
  - (* expire *)
    clear P. hist.
    assert (Z : forall d2, od' = Some d2 -> w' = w /\ gen d2 = gen d /\ want d2 = want d /\ once d2 = once d /\ is_clear d2 = is_clear d).
    { intros d2 Z. destruct (thand d); [destruct R as (-> & -> & ->); apply some_inj in Z as <-; rewrite E; cbn; auto 10|]. destruct R as (R & ->). rewrite E in R. unfold lfinish in R. cbn [with_marks with_deadline is_clear] in R.
      destruct (is_clear d) eqn:C; injection R as -> ->; [discriminate|]. apply some_inj in Z as <-. cbn. rewrite ?C. auto 10. }
    destruct (Z dx X) as (-> & -> & -> & -> & Z6). rewrite Z6 in Cx. apply (I d eq_refl Cx).
  - (* report *)
    apply some_inj in X as <-. cbn [good] in G. destruct G as (G1 & _ & _ & G4 & _). destruct (G4 w eq_refl) as (DP & C). destruct (I d eq_refl C) as (I1 & I2 & m & I3 & I4). injection I3 as ->.
    destruct (told_history fd ev h) as (_ & _ & H3). unfold disarmed in *. cbn [once_only] in *.
    destruct (in_active d) eqn:AA.
    + destruct (lreport_active d (mkW m false true (gen d)) ev AA) as (d2 & w2 & E2 & F & B7 & B8 & B9 & B10 & B11). rewrite E2 in E. injection E as <- <-.
      destruct B11 as (B11 & ->); [intros k; apply I2|]. destruct F as (-> & _). split. { unfold some_of in *. now rewrite !B11. }
      split. { intros k. destruct (H3 k) as (_ & _ & -> & _). destruct (B8 k) as (_ & -> & _). rewrite B11. apply I2. } exists m. split; [reflexivity|]. intros k. rewrite B11. apply I4.
    + destruct (lreport_waiting d (mkW m false true (gen d)) ev AA G1) as (d2 & w2 & E2 & F & B7 & B8 & B9). rewrite E2 in E. injection E as <- <-.
      assert (UU : used_up d ev = false). { unfold used_up. destruct (I2 Recv) as (-> & _), (I2 Send) as (-> & _), (I2 Err) as (-> & _). now rewrite !andb_false_r. }
      rewrite UU in B9. rewrite B9. assert (WW : forall k, want d2 k = want d k). { intros k. destruct (B8 k) as (_ & _ & ->). destruct (I2 k) as (-> & _). rewrite andb_false_r. cbn. apply andb_true_r. }
      destruct F as (-> & _). split. { unfold some_of in *. now rewrite !WW. }
      split. { intros k. destruct (H3 k) as (_ & _ & -> & _). destruct (B8 k) as (_ & -> & _). rewrite WW. destruct (I2 k) as (-> & ->). auto. } exists m. split; [reflexivity|]. intros k. rewrite WW. apply I4.
Qed.
Lemma rest_self : forall k, ~ In k (rest_of k).
Proof. intros [] I; cbn in I; repeat (destruct I as [I|I]; [discriminate|]); exact I. Qed.
Lemma served_step : forall bound fd h od w b e od' w' b', good h fd od w b -> served h fd od b -> lstep true bound fd h od w b e od' w' b' -> served (e ++ h) fd od' b'.
Proof.
  intros bound fd h od w b e od' w' b' G I L. destruct L as [g od w b f o a t hd d w' E|od w b od' w' E|d w b hd C|d w brk l a r od' w' b' d1 A Q E W R|d w k0 brk l a r od' w' b' d1 Q E W R|d w od' w' E|d w Q|d w now od' w' b' d1 Q P E R|d w ev d' w' Q A MR MS E];
    intros k Pk.
  - (* set *)
    revert Pk. hist. intros Pk. destruct (lset_shape _ _ _ _ _ _ _ _ _ _ E) as (dd & m & E' & Cd & M). destruct (lappend_fields _ _ _ _ _ _ _ _ _ E') as (L1 & L2 & L3 & L4 & L5 & L6 & L7).
    destruct (I k Pk) as (d0 & -> & I2 & I3). cbn [good] in G. destruct (is_clear d0) eqn:C0; [destruct G as (_ & _ & _ & _ & _ & _ & _ & K); destruct (K k) as (_ & K2 & _); congruence|].
    destruct M as (-> & M2 & M3 & M4 & M5). exists d. rewrite L1, L2, L4, M2, M3, M4. auto.
  - revert Pk. hist. discriminate.
  - revert Pk. hist. intros Pk. destruct (I k Pk) as (d0 & D & I2 & I3). apply some_inj in D as <-. eexists. split; [reflexivity|]. cbn. auto.
  - (* go *)
    cbn [good] in G. destruct G as (G1 & G2 & _). assert (C : is_clear d = false) by (destruct (is_clear d); [rewrite G2 in G1 by reflexivity; discriminate|reflexivity]).
    destruct (gives_up_frame brk (with_marks (with_deadline d None) true (is_clear d) false)) as (_ & _ & _ & _ & _ & F5 & _). rewrite F5 in E by (auto; cbn; exact C). subst d1.
    destruct (walk_facts _ _ _ _ _ W (or_introl eq_refl)) as (W1 & W2 & W3 & W4 & W5). fold (call fd r) in Pk. rewrite <- !app_assoc in Pk. cbn [app with_marks with_deadline act] in *.
    destruct (calls_history fd r l (Served fd :: h)) as (_ & _ & H3). destruct (H3 k) as (_ & _ & P1 & P2 & _ & P4).
    assert (N : ~ In k l) by (intros Y; rewrite (P1 Y) in Pk; discriminate).
    assert (N' : forall hd, r <> Some (k, hd)) by (intros hd Y; destruct (P4 hd Y) as (_ & Z); congruence).
    rewrite (P2 N N') in Pk. cbn [pending] in Pk. destruct (I k Pk) as (d0 & D & I2 & I3). apply some_inj in D as <-.
    assert (Ak : a k = true) by (rewrite (W4 _ N); exact I2). assert (Ik : In k [Recv; Send; Err]) by (destruct k; cbn; auto).
    destruct r as [[k1 hd]|]; [|rewrite (W5 k Ik) in Ak; discriminate]. destruct R as (-> & -> & ->). destruct W5 as (_ & _ & _ & _ & _ & W6).
    eexists. split; [reflexivity|]. cbn [with_act act gen]. split; [exact Ak|]. right. exists k1. split; [reflexivity|]. destruct (W6 k Ik Ak) as [->|Z]; [elim (N' hd); reflexivity|exact Z].
  - (* back *)
    cbn [good] in G. destruct G as ((_ & G1) & G2 & G3 & _ & _ & G6).
    destruct (walk_facts _ _ _ _ _ W (or_intror (ex_intro _ k0 eq_refl))) as (W1 & W2 & W3 & W4 & W5). fold (call fd r) in Pk. rewrite <- !app_assoc in Pk. cbn [app] in Pk.
    destruct (calls_history fd r l h) as (_ & _ & H3). destruct (H3 k) as (_ & _ & P1 & P2 & _ & P4).
    assert (N : ~ In k l) by (intros Y; rewrite (P1 Y) in Pk; discriminate).
    assert (N' : forall hd, r <> Some (k, hd)) by (intros hd Y; destruct (P4 hd Y) as (_ & Z); congruence).
    rewrite (P2 N N') in Pk. destruct (is_clear d) eqn:C; [destruct G6 as (_ & _ & K); destruct (K k) as (_ & K2 & _); congruence|].
    destruct (I k Pk) as (d0 & D & I2 & I3). apply some_inj in D as <-.
    assert (Ik : In k (rest_of k0)). { destruct I3 as [Z|(k1 & Z & Z')]; [rewrite (G3 Z) in G1; discriminate|]. injection Z as ->. exact Z'. }
    assert (N0 : k0 <> k) by (intros ->; now apply (rest_self k)).
    destruct (gives_up_frame brk (with_act d (upk (act d) k0 false))) as (_ & _ & _ & _ & _ & F5 & _). rewrite F5 in E by (auto; cbn; exact C). subst d1. cbn [with_act act] in *.
    assert (Ak : a k = true) by (rewrite (W4 _ N), upk_other by exact N0; exact I2).
    destruct r as [[k1 hd]|]; [|rewrite (W5 k Ik) in Ak; discriminate]. destruct R as (-> & -> & ->). destruct W5 as (_ & _ & _ & _ & _ & W6).
    eexists. split; [reflexivity|]. cbn [with_act act gen]. split; [exact Ak|]. right. exists k1. split; [reflexivity|]. destruct (W6 k Ik Ak) as [->|Z]; [elim (N' hd); reflexivity|exact Z].
  - (* return *)
    cbn [good app] in *. destruct G as ((_ & G1) & _ & G3 & _). destruct (I k Pk) as (d0 & D & I2 & I3). apply some_inj in D as <-. destruct I3 as [Z|(k1 & Z & _)]; [rewrite (G3 Z) in G1|]; discriminate.
  - cbn [app] in Pk. destruct (I k Pk) as (d0 & D & I2 & I3). apply some_inj in D as <-. rewrite (Q eq_refl) in I3. destruct I3 as [Z|(k1 & Z & _)]; discriminate.
  - revert Pk. hist. intros Pk. destruct (I k Pk) as (d0 & D & I2 & I3). apply some_inj in D as <-. rewrite (Q eq_refl) in I3. destruct I3 as [Z|(k1 & Z & _)]; discriminate.
  - destruct (told_history fd ev h) as (_ & _ & H3). destruct (H3 k) as (_ & _ & _ & Z). rewrite Z in Pk. cbn [good] in G. destruct G as (G1 & _). specialize (Q eq_refl).
    destruct (lreport_waiting d w ev Q G1) as (d2 & w2 & E2 & F & B7 & B8 & B9). rewrite E2 in E. injection E as <- <-.
    apply orb_true_iff in Pk as [Pk|Pk]; [|destruct (I k Pk) as (d0 & D & I2 & I3); apply some_inj in D as <-; rewrite Q in I3; destruct I3 as [Y|(k1 & Y & _)]; discriminate].
    exists d2. split; [reflexivity|]. destruct (B8 k) as (-> & _). rewrite Pk. split; [apply orb_true_r|now left].
Qed.

(** ** All descriptors *)
Definition core (quick pers : bool) (h : list event) (s : st) : Prop :=
  (forall fd g, In (fd, g) (active s) <-> exists d, descs s fd = Some d /\ in_active d = true /\ gen d = g) /\ NoDup (active s) /\
  match pcs s 0 with InHandler _ k rest => rest = rest_of k | _ => True end /\ (quick = true -> broken s = false) /\
  (forall fd, good h fd (descs s fd) (epoll s fd) (busy_at (pcs s 0) fd) /\ aimed h fd (descs s fd) (epoll s fd) (busy_at (pcs s 0) fd) /\
     (pers = true -> watched h fd (descs s fd) (epoll s fd)) /\ (quick = true -> served h fd (descs s fd) (busy_at (pcs s 0) fd))).
Lemma lstep_about : forall quick bound fd h od w b e od' w' b', lstep quick bound fd h od w b e od' w' b' -> Forall (fun x => about x = Some fd) e.
Proof.
  intros quick bound fd h od w b e od' w' b' L.
  assert (C : forall r l, Forall (fun x => about x = Some fd) (call fd r ++ map (Ignored fd) l)).
  { intros r l. apply Forall_app. split; [destruct r as [[]|]; cbn; auto|]. apply Forall_forall. intros x I. apply in_map_iff in I as (k & <- & _). reflexivity. }
  destruct L; try (constructor; [reflexivity|constructor]); try constructor.
  - fold (call fd r). rewrite app_assoc. apply Forall_app. split; [apply C|constructor; [reflexivity|constructor]].
  - apply C.
  - unfold told. destruct (ev Err), (ev Send), (ev Recv); cbn; auto.
Qed.
Definition outside (fd : nat) (s s' : st) : Prop :=
  forall fd', fd' <> fd -> descs s' fd' = descs s fd' /\ epoll s' fd' = epoll s fd' /\ busy_at (pcs s' 0) fd' = busy_at (pcs s 0) fd' /\ (forall g, In (fd', g) (active s') <-> In (fd', g) (active s)).
Lemma frame : forall fd e h od w b, Forall (elsewhere fd) e ->
  (good h fd od w b -> good (e ++ h) fd od w b) /\ (aimed h fd od w b -> aimed (e ++ h) fd od w b) /\ (watched h fd od w -> watched (e ++ h) fd od w) /\ (served h fd od b -> served (e ++ h) fd od b).
Proof.
  intros fd e h od w b F. destruct (elsewhere_all fd e h F) as (E1 & E2 & E3).
  split. { unfold good. rewrite E1, E2. destruct od as [d|].
    - intros (G1 & G2 & G3 & G4 & G5 & G6). do 5 (split; [assumption|]). destruct (is_clear d).
      + destruct G6 as (K1 & K2 & K3). do 2 (split; [assumption|]). intros k. destruct (E3 k) as (-> & -> & -> & ->). apply K3.
      + destruct G6 as (K1 & K2). split; [exact K1|]. intros k. destruct (E3 k) as (-> & -> & _). apply K2.
    - intros (G1 & G2 & G3 & G4 & G5). do 4 (split; [assumption|]). intros k. destruct (E3 k) as (-> & -> & -> & ->). apply G5. }
  split. { intros A d k n D C N S. destruct (E3 k) as (_ & _ & Q & _). rewrite Q in S. now apply A. }
  split. { intros A d D C. destruct (A d D C) as (A1 & A2 & A3). split; [exact A1|]. split; [|exact A3]. intros k. destruct (E3 k) as (_ & _ & _ & ->). apply A2. }
  intros A k P. destruct (E3 k) as (_ & Q & _). rewrite Q in P. now apply A.
Qed.
Lemma core_local : forall quick pers bound h s s' fd e, core quick pers h s ->
  lstep quick bound fd h (descs s fd) (epoll s fd) (busy_at (pcs s 0) fd) e (descs s' fd) (epoll s' fd) (busy_at (pcs s' 0) fd) -> outside fd s s' ->
  (forall g, In (fd, g) (active s') <-> exists d, descs s' fd = Some d /\ in_active d = true /\ gen d = g) -> NoDup (active s') ->
  match pcs s' 0 with InHandler _ k rest => rest = rest_of k | _ => True end -> (quick = true -> broken s' = false) -> (pers = true -> Forall lasting e) ->
  core quick pers (e ++ h) s'.
Proof.
  intros quick pers bound h s s' fd e (C1 & C2 & C3 & C4 & C5) L O A N Sh Q P. split; [|split; [exact N|split; [exact Sh|split; [exact Q|]]]].
  - intros fd' g. destruct (Nat.eq_dec fd' fd) as [->|Nf]; [apply A|]. destruct (O fd' Nf) as (O1 & _ & _ & O4). rewrite O4, O1. apply C1.
  - intros fd'. destruct (Nat.eq_dec fd' fd) as [->|Nf].
    + destruct (C5 fd) as (D1 & D2 & D3 & D4). split; [apply (good_step _ _ _ _ _ _ _ _ _ _ _ D1 L)|]. split; [apply (aimed_step _ _ _ _ _ _ _ _ _ _ _ D1 D2 L)|].
      split; [intros T; apply (watched_step _ _ _ _ _ _ _ _ _ _ _ D1 (D3 T) L (P T))|]. intros T. rewrite T in L. apply (served_step _ _ _ _ _ _ _ _ _ _ D1 (D4 T) L).
    + destruct (O fd' Nf) as (-> & -> & -> & _). destruct (C5 fd') as (D1 & D2 & D3 & D4).
      assert (F : Forall (elsewhere fd') e). { apply lstep_about in L. eapply Forall_impl; [|exact L]. intros x X. unfold elsewhere. congruence. }
      destruct (frame fd' e h (descs s fd') (epoll s fd') (busy_at (pcs s 0) fd') F) as (F1 & F2 & F3 & F4). auto 10.
Qed.
(** A step that concerns no descriptor. *)
Lemma core_still : forall quick pers h s s' e, core quick pers h s -> Forall (fun x => about x = None) e -> descs s' = descs s -> epoll s' = epoll s -> active s' = active s ->
  (forall fd, busy_at (pcs s' 0) fd = busy_at (pcs s 0) fd) -> match pcs s' 0 with InHandler _ k rest => rest = rest_of k | _ => True end -> (quick = true -> broken s' = false) -> core quick pers (e ++ h) s'.
Proof.
  intros quick pers h s s' e (C1 & C2 & C3 & C4 & C5) F D E A B Sh Q. unfold core. rewrite D, E, A. do 2 (split; [assumption|]). do 2 (split; [assumption|]).
  intros fd. rewrite B. destruct (C5 fd) as (D1 & D2 & D3 & D4). assert (F' : Forall (elsewhere fd) e) by (eapply Forall_impl; [|exact F]; intros x X; unfold elsewhere; congruence).
  destruct (frame fd e h (descs s fd) (epoll s fd) (busy_at (pcs s 0) fd) F') as (F1 & F2 & F3 & F4). auto 10.
Qed.

(** ** What happens is allowed *)
Lemma proper_ignored : forall bound fd l h, proper bound h -> NoDup l -> (forall k, In k l -> registered h fd k = None /\ pending h fd k = true) -> proper bound (map (Ignored fd) l ++ h).
Proof.
  intros bound fd l h P. induction l as [|k l IH]; intros N H; [exact P|]. inversion_clear N as [|? ? N1 N2]. cbn [map app proper allowed].
  destruct (ignored_history fd l h) as (_ & _ & I3). destruct (I3 k) as (-> & _ & _ & _ & J5). rewrite (J5 N1). split; [apply H; now left|]. apply IH; [exact N2|]. intros k' I. apply H. now right.
Qed.
Lemma proper_quiet : forall bound e h, proper bound h -> Forall (fun x => match x with Called _ _ _ | Ignored _ _ | Expired _ _ _ | NoneDue _ => False | _ => True end) e -> proper bound (e ++ h).
Proof. intros bound e h P F. induction F as [|x e X F IH]; [exact P|]. cbn [app proper]. split; [|exact IH]. destruct x; easy. Qed.
Lemma proper_step : forall quick bound fd h od w b e od' w' b', good h fd od w b -> lstep quick bound fd h od w b e od' w' b' -> proper bound h -> proper bound (e ++ h).
Proof.
  intros quick bound fd h od w b e od' w' b' G L P.
  destruct L as [g od w b f o a t hd d w' E|od w b od' w' E|d w b hd C|d w brk l a r od' w' b' d1 A Q E W R|d w k0 brk l a r od' w' b' d1 Q E W R|d w od' w' E|d w Q|d w now od' w' b' d1 Q PP E R|d w ev d' w' Q A MR MS E];
    try (now apply proper_quiet; [exact P|repeat constructor]).
  - (* go *)
    cbn [good] in G. destruct G as (G1 & G2 & _ & _ & _ & G6). assert (C : is_clear d = false) by (destruct (is_clear d); [rewrite G2 in G1 by reflexivity; discriminate|reflexivity]). rewrite C in G6. destruct G6 as (_ & K).
    destruct (gives_up_frame brk (with_marks (with_deadline d None) true (is_clear d) false)) as (F & _ & _ & _ & F4 & _). rewrite <- E in *. clear E. destruct F as (_ & _ & _ & _ & _ & B6). cbn [with_marks with_deadline hand act] in *.
    destruct (walk_facts _ _ _ _ _ W (or_introl eq_refl)) as (W1 & W2 & W3 & W4 & W5). rewrite <- !app_assoc. cbn [app].
    assert (PI : proper bound (map (Ignored fd) l ++ Served fd :: h)).
    { apply proper_ignored; [split; [exact I|exact P]|exact W2|]. intros k I. destruct (W1 k I) as (_ & X & Y). cbn [registered pending]. rewrite B6 in Y. destruct (K k) as (K1 & K2). split; [congruence|]. destruct (K2 (F4 _ X)); [assumption|discriminate]. }
    destruct r as [[k hd]|]; [|exact PI]. cbn [app proper allowed]. split; [|exact PI]. destruct W5 as (_ & _ & V3 & V4 & V5 & _). destruct (ignored_history fd l (Served fd :: h)) as (_ & _ & I3). destruct (I3 k) as (-> & _ & _ & _ & J5). rewrite (J5 V5).
    cbn [registered pending]. rewrite B6 in V4. destruct (K k) as (K1 & K2). split; [congruence|]. destruct (K2 (F4 _ V3)); [assumption|discriminate].
  - (* back *)
    cbn [good] in G. destruct G as (_ & _ & _ & _ & _ & G6).
    destruct (gives_up_frame brk (with_act d (upk (act d) k0 false))) as (F & _ & _ & _ & F4 & _ & F6). rewrite <- E in *. clear E. destruct F as (_ & _ & _ & _ & _ & B6). cbn [with_act hand act is_clear] in *.
    destruct (walk_facts _ _ _ _ _ W (or_intror (ex_intro _ k0 eq_refl))) as (W1 & W2 & W3 & W4 & W5). rewrite <- !app_assoc. cbn [app].
    assert (Z : forall k, act d1 k = true -> hand d k = registered h fd k /\ pending h fd k = true).
    { intros k T. destruct (is_clear d) eqn:C; [rewrite (F6 eq_refl) in T; discriminate|]. destruct G6 as (_ & K). apply F4 in T. destruct (kind_dec k0 k) as [->|N0]; [rewrite upk_same in T; discriminate|].
      rewrite upk_other in T by exact N0. destruct (K k) as (K1 & K2). split; [exact K1|]. destruct (K2 T); [assumption|congruence]. }
    assert (PI : proper bound (map (Ignored fd) l ++ h)).
    { apply proper_ignored; [exact P|exact W2|]. intros k I. destruct (W1 k I) as (_ & X & Y). rewrite B6 in Y. destruct (Z k X). split; [congruence|assumption]. }
    destruct r as [[k hd]|]; [|exact PI]. cbn [app proper allowed]. split; [|exact PI]. destruct W5 as (_ & _ & V3 & V4 & V5 & _). destruct (ignored_history fd l h) as (_ & _ & I3). destruct (I3 k) as (-> & _ & _ & _ & J5). rewrite (J5 V5).
    rewrite B6 in V4. destruct (Z k V3). split; [congruence|assumption].
  - (* expire *)
    cbn [app proper]. split; assumption.
  - (* report *)
    apply proper_quiet; [exact P|]. unfold told. destruct (ev Err), (ev Send), (ev Recv); cbn; auto.
Qed.
Lemma limited_quiet : forall e h, limited h -> Forall (fun x => match x with Called _ _ _ => False | _ => True end) e -> limited (e ++ h).
Proof. intros e h P F. induction F as [|x e X F IH]; [exact P|]. cbn [app limited]. split; [|exact IH]. destruct x; easy. Qed.
Lemma limited_step : forall quick bound fd h od w b e od' w' b', good h fd od w b -> aimed h fd od w b -> lstep quick bound fd h od w b e od' w' b' -> limited h -> limited (e ++ h).
Proof.
  intros quick bound fd h od w b e od' w' b' G I L P.
  destruct L as [g od w b f o a t hd d w' E|od w b od' w' E|d w b hd C|d w brk l a r od' w' b' d1 A Q E W R|d w k0 brk l a r od' w' b' d1 Q E W R|d w od' w' E|d w Q|d w now od' w' b' d1 Q PP E R|d w ev d' w' Q A MR MS E];
    try (now apply limited_quiet; [exact P|repeat constructor]).
  - (* go *)
    cbn [good] in G. destruct G as (G1 & G2 & _). assert (C : is_clear d = false) by (destruct (is_clear d); [rewrite G2 in G1 by reflexivity; discriminate|reflexivity]).
    destruct (gives_up_frame brk (with_marks (with_deadline d None) true (is_clear d) false)) as (_ & _ & _ & _ & F4 & _). rewrite <- E in *. clear E. cbn [with_marks with_deadline act] in *.
    destruct (walk_facts _ _ _ _ _ W (or_introl eq_refl)) as (_ & _ & _ & _ & W5). rewrite <- !app_assoc. cbn [app].
    assert (PI : limited (map (Ignored fd) l ++ Served fd :: h)). { apply limited_quiet; [cbn; auto|]. apply Forall_forall. intros x X. apply in_map_iff in X as (k & <- & _). exact Logic.I. }
    destruct r as [[k hd]|]; [|exact PI]. cbn [app limited]. split; [|exact PI]. destruct (kind_dec k Err) as [->|Nk]; [now left|right]. destruct W5 as (_ & _ & V3 & _).
    destruct (ignored_history fd l (Served fd :: h)) as (_ & _ & I3). destruct (I3 k) as (_ & -> & _). cbn [shots]. intros S0. destruct (I d k 0 eq_refl C Nk S0) as (_ & [(Y & _)|[(Y & _)|(_ & _ & _ & [Y|Y])]]); try discriminate.
    rewrite (F4 _ V3) in Y. discriminate.
  - (* back *)
    cbn [good] in G. destruct G as (_ & _ & _ & _ & _ & _).
    destruct (gives_up_frame brk (with_act d (upk (act d) k0 false))) as (_ & _ & _ & _ & F4 & _ & F6). rewrite <- E in *. clear E. cbn [with_act act is_clear] in *.
    destruct (walk_facts _ _ _ _ _ W (or_intror (ex_intro _ k0 eq_refl))) as (_ & _ & _ & _ & W5). rewrite <- !app_assoc. cbn [app].
    assert (PI : limited (map (Ignored fd) l ++ h)). { apply limited_quiet; [exact P|]. apply Forall_forall. intros x X. apply in_map_iff in X as (k & <- & _). exact Logic.I. }
    destruct r as [[k hd]|]; [|exact PI]. cbn [app limited]. split; [|exact PI]. destruct (kind_dec k Err) as [->|Nk]; [now left|right]. destruct W5 as (_ & _ & V3 & _).
    destruct (ignored_history fd l h) as (_ & _ & I3). destruct (I3 k) as (_ & -> & _). intros S0. destruct (is_clear d) eqn:C; [rewrite (F6 eq_refl) in V3; discriminate|]. apply F4 in V3.
    destruct (kind_dec k0 k) as [->|N0]; [rewrite upk_same in V3; discriminate|]. rewrite upk_other in V3 by exact N0.
    destruct (I d k 0 eq_refl C Nk S0) as (_ & [(Y & _)|[(Y & _)|(_ & _ & _ & [Y|Y])]]); try discriminate; congruence.
  - apply limited_quiet; [exact P|]. unfold told. destruct (ev Err), (ev Send), (ev Recv); cbn; auto.
Qed.
Lemma thorough_quiet : forall e h, thorough h -> Forall (fun x => x <> Polled) e -> thorough (e ++ h).
Proof. intros e h P F. induction F as [|x e X F IH]; [exact P|]. cbn [app thorough]. split; [|exact IH]. destruct x; easy. Qed.

(** ** The steps of the loop are steps of a descriptor *)
Definition inv (quick pers : bool) (bound : nat) (h : list event) (s : st) : Prop := core quick pers h s /\ proper bound h /\ limited h /\ (quick = true -> thorough h).
Definition calm (s : st) : Prop := match pcs s 0 with ToTimeout | AtTimeout _ | InTimeout _ _ | AtPoll => active s = [] | _ => True end.
Lemma inv_local : forall quick pers bound h s s' fd e, inv quick pers bound h s ->
  lstep quick bound fd h (descs s fd) (epoll s fd) (busy_at (pcs s 0) fd) e (descs s' fd) (epoll s' fd) (busy_at (pcs s' 0) fd) -> outside fd s s' ->
  (forall g, In (fd, g) (active s') <-> exists d, descs s' fd = Some d /\ in_active d = true /\ gen d = g) -> NoDup (active s') ->
  match pcs s' 0 with InHandler _ k rest => rest = rest_of k | _ => True end -> (quick = true -> broken s' = false) -> (pers = true -> Forall lasting e) ->
  inv quick pers bound (e ++ h) s'.
Proof.
  intros quick pers bound h s s' fd e (C & P & Li & T) L O A N Sh Q La. split; [apply (core_local quick pers bound h s s' fd e); assumption|]. destruct C as (_ & _ & _ & _ & C). destruct (C fd) as (C1 & C2 & _).
  split; [apply (proper_step _ _ _ _ _ _ _ _ _ _ _ C1 L P)|]. split; [apply (limited_step _ _ _ _ _ _ _ _ _ _ _ C1 C2 L Li)|]. intros X. apply thorough_quiet; [auto|].
  apply lstep_about in L. eapply Forall_impl; [|exact L]. intros x Y ->. discriminate.
Qed.
Lemma inv_still : forall quick pers bound h s s', inv quick pers bound h s -> descs s' = descs s -> epoll s' = epoll s -> active s' = active s ->
  (forall fd, busy_at (pcs s' 0) fd = busy_at (pcs s 0) fd) -> match pcs s' 0 with InHandler _ k rest => rest = rest_of k | _ => True end -> (quick = true -> broken s' = false) -> inv quick pers bound h s'.
Proof. intros quick pers bound h s s' (C & P) D E A B Sh Q. split; [|exact P]. apply (core_still quick pers h s s' []); auto. Qed.
Lemma upd_same : forall {A} (f : nat -> A) x v, upd f x v x = v.
Proof. intros. unfold upd. now rewrite Nat.eqb_refl. Qed.
Lemma upd_other : forall {A} (f : nat -> A) x v y, y <> x -> upd f x v y = f y.
Proof. intros A f x v y N. unfold upd. apply Nat.eqb_neq in N. now rewrite N. Qed.
Definition around (fd : nat) (s s' : st) : Prop :=
  (forall fd', fd' <> fd -> descs s' fd' = descs s fd' /\ epoll s' fd' = epoll s fd') /\ active s' = active s /\ broken s' = broken s /\ pcs s' = pcs s.
Lemma around_refl : forall fd s, around fd s s.
Proof. intros. unfold around. auto. Qed.
Lemma around_trans : forall fd a b c, around fd a b -> around fd b c -> around fd a c.
Proof. unfold around. intros fd a b c (A1 & A2 & A3 & A4) (B1 & B2 & B3 & B4). split; [|split; [|split]; congruence]. intros fd' N. destruct (A1 fd' N), (B1 fd' N). split; congruence. Qed.
Lemma around_put : forall fd s od, around fd s (put s fd od) /\ descs (put s fd od) fd = od /\ epoll (put s fd od) fd = epoll s fd.
Proof. intros. unfold around, put. cbn. split; [|split; [apply upd_same|reflexivity]]. split; [|auto]. intros fd' N. now rewrite upd_other. Qed.
Lemma around_ctl : forall fd s w m, around fd s (ctl s fd w m) /\ descs (ctl s fd w m) fd = descs s fd /\ epoll (ctl s fd w m) fd = match epoll s fd, m with Some _, true | None, false => Some w | _, _ => epoll s fd end.
Proof.
  intros fd s w m. unfold ctl. destruct (epoll s fd) eqn:E, m; (split; [|rewrite ?E; cbn; rewrite ?upd_same; auto]); try apply around_refl; unfold around, with_epoll; cbn; (split; [|auto]); intros fd' N; now rewrite upd_other.
Qed.
Lemma around_append : forall s fd d f o hd m w, epoll s fd = w -> exists d' w', lappend d f o hd m w = (d', w') /\ around fd s (append s fd d f o hd m) /\
  descs (append s fd d f o hd m) fd = Some d' /\ epoll (append s fd d f o hd m) fd = w'.
Proof.
  intros s fd d f o hd m w E. unfold lappend, append. do 2 eexists. split; [reflexivity|]. cbn [want gen].
  match goal with |- context [put s fd (Some ?x)] => destruct (around_put fd s (Some x)) as (A1 & A2 & A3) end.
  destruct (some_of _).
  - match goal with |- context [ctl ?s0 fd ?w0 m] => destruct (around_ctl fd s0 w0 m) as (B1 & B2 & B3) end.
    split; [apply (around_trans _ _ _ _ A1 B1)|]. split; [congruence|]. rewrite B3, A3, E. destruct w, m; reflexivity.
  - split; [exact A1|]. split; [exact A2|congruence].
Qed.
Lemma set_fd_local : forall s fd f o a t hd s', set_fd s fd f o a t hd = Some s' -> exists d w, lset (fresh s) (descs s fd) (epoll s fd) f o a t hd = Some (d, w) /\ around fd s s' /\ descs s' fd = Some d /\ epoll s' fd = w.
Proof.
  intros s fd f o a t hd s' E. unfold set_fd in E. destruct (negb (fits t)); [discriminate|]. unfold lset. destruct (descs s fd) as [d0|].
  - destruct a; [destruct (is_clear d0); [discriminate|]|destruct (is_clear d0)]; apply some_inj in E as <-;
      match goal with |- context [append s fd ?x f o hd ?m] => destruct (around_append s fd x f o hd m (epoll s fd) eq_refl) as (d' & w' & L & A & D & W) end; exists d', w'; rewrite L; auto.
  - apply some_inj in E as <-.
    match goal with |- context [append s fd ?x f o hd ?m] => destruct (around_append s fd x f o hd m (epoll s fd) eq_refl) as (d' & w' & L & A & D & W) end. exists d', w'. rewrite L. cbn [descs epoll]. split; [reflexivity|].
    split; [|auto]. destruct A as (A1 & A2 & A3 & A4). unfold around. cbn. auto.
Qed.
Lemma around_outside : forall fd s s', around fd s s' -> outside fd s s'.
Proof. intros fd s s' (A1 & A2 & A3 & A4) fd' N. destruct (A1 fd' N) as (-> & ->). rewrite A2, A4. intuition. Qed.
Lemma lset_active : forall g od w f o a t hd d w' h fd b, lset g od w f o a t hd = Some (d, w') -> good h fd od w b ->
  in_active d = match od with Some d0 => in_active d0 | None => false end /\ (in_active d = true -> match od with Some d0 => gen d = gen d0 | None => False end).
Proof.
  intros g od w f o a t hd d w' h fd b E G. destruct (lset_shape _ _ _ _ _ _ _ _ _ _ E) as (dd & m & E' & Cd & M). destruct (lappend_fields _ _ _ _ _ _ _ _ _ E') as (L1 & L2 & L3 & L4 & L5 & L6 & L7). rewrite L4, L1.
  destruct od as [d0|]; [|destruct M as (_ & ->); cbn; split; [reflexivity|discriminate]]. cbn [good] in G. destruct (is_clear d0) eqn:C.
  - destruct M as (_ & _ & ->). cbn. destruct G as (_ & G2 & G3 & _). specialize (G2 eq_refl). destruct (in_active d0); [rewrite G3 in G2; [discriminate|reflexivity]|]. split; [reflexivity|discriminate].
  - destruct M as (_ & M2 & _ & M4 & _). auto.
Qed.
Lemma inv_set : forall quick pers bound h s fd f o a t hd s', inv quick pers bound h s -> set_fd s fd f o a t hd = Some s' -> (pers = true -> o = false /\ some_of f = true) ->
  inv quick pers bound (WasSet fd f o a t hd :: h) s' /\ active s' = active s /\ pcs s' = pcs s.
Proof.
  intros quick pers bound h s fd f o a t hd s' I E P. destruct (set_fd_local _ _ _ _ _ _ _ _ E) as (d & w & L & A & D & W). assert (I' := I). destruct I' as ((C1 & C2 & C3 & C4 & C5) & _). destruct (C5 fd) as (G & _).
  assert (A' := A). destruct A' as (_ & A2 & A3 & A4). split; [|auto].
  apply (inv_local quick pers bound h s s' fd [WasSet fd f o a t hd]); rewrite ?A2, ?A3, ?A4, ?D, ?W; try assumption.
  - now apply (l_set _ _ _ _ (fresh s)).
  - now apply around_outside.
  - intros g. rewrite C1. destruct (lset_active _ _ _ _ _ _ _ _ _ _ _ _ _ L G) as (Q1 & Q2). destruct (descs s fd) as [d0|].
    + split; intros (d1 & X & Y & Z).
      * apply some_inj in X as <-. rewrite Y in Q1. exists d. rewrite (Q2 Q1). auto.
      * apply some_inj in X as <-. exists d0. rewrite <- (Q2 Y), <- Q1. auto.
    + split; intros (d1 & X & Y & Z); [discriminate|]. apply some_inj in X as <-. destruct (Q2 Y).
  - intros T. constructor; [apply P, T|constructor].
Qed.
Lemma without_in : forall p l q, In q (without p l) <-> In q l /\ q <> p.
Proof.
  intros [a b] l [c d]. unfold without. rewrite filter_In. unfold ptr_eqb. cbn [fst snd]. rewrite negb_true_iff, andb_false_iff, !Nat.eqb_neq.
  split; intros (I & N); (split; [exact I|]).
  - intros E. injection E as -> ->. destruct N; congruence.
  - destruct (Nat.eq_dec a c) as [->|]; [right|now left]. intros ->. now apply N.
Qed.
Lemma clear_local : forall s fd, exists od w, lclear (descs s fd) (epoll s fd) = (od, w) /\ descs (clear s fd) fd = od /\ epoll (clear s fd) fd = w /\ pcs (clear s fd) = pcs s /\ broken (clear s fd) = broken s /\
  (forall fd', fd' <> fd -> descs (clear s fd) fd' = descs s fd' /\ epoll (clear s fd) fd' = epoll s fd') /\
  active (clear s fd) = match descs s fd with Some d => if in_process d then active s else if in_active d then without (fd, gen d) (active s) else active s | None => active s end.
Proof.
  intros s fd. unfold clear, lclear. destruct (descs s fd) as [d|] eqn:D; [|do 2 eexists; split; [reflexivity|auto 10]].
  destruct (in_process d); do 2 eexists; (split; [reflexivity|]); cbn [put with_epoll with_active descs epoll active pcs broken]; rewrite !upd_same;
    (do 4 (split; [reflexivity|]); split; [intros fd' N; now rewrite !upd_other|reflexivity]).
Qed.
Lemma NoDup_filter' : forall {A} (f : A -> bool) l, NoDup l -> NoDup (filter f l).
Proof. intros. now apply NoDup_filter. Qed.
Lemma inv_clear : forall quick pers bound h s fd, inv quick pers bound h s -> inv quick pers bound (Cleared fd :: h) (clear s fd) /\ pcs (clear s fd) = pcs s /\ (active s = [] -> active (clear s fd) = []).
Proof.
  intros quick pers bound h s fd I. destruct (clear_local s fd) as (od & w & L & D & W & P & B & O & A). assert (I' := I). destruct I' as ((C1 & C2 & C3 & C4 & C5) & _). destruct (C5 fd) as (G & _).
  split; [|split; [exact P|intros E; rewrite A, E; destruct (descs s fd) as [d|]; [destruct (in_process d), (in_active d)|]; reflexivity]].
  apply (inv_local quick pers bound h s (clear s fd) fd [Cleared fd]); rewrite ?D, ?W, ?P, ?B; try assumption.
  - now apply l_clear.
  - intros fd' N. destruct (O fd' N) as (-> & ->). rewrite P. do 3 (split; [reflexivity|]). intros g. rewrite A. destruct (descs s fd) as [d|]; [|reflexivity]. destruct (in_process d), (in_active d); try reflexivity.
    rewrite without_in. split; [easy|]. intros X. split; [exact X|congruence].
  - intros g. rewrite A. unfold lclear in L. destruct (descs s fd) as [d|] eqn:Ds.
    + destruct (in_process d) eqn:Pd.
      * injection L as <- <-. rewrite C1, Ds. split; intros (d1 & X & Y & Z); apply some_inj in X as <-; [eexists; split; [reflexivity|]; cbn; auto|]. exists d. cbn in Y, Z. auto.
      * injection L as <- <-. split; [|intros (d1 & X & _); discriminate]. destruct (in_active d) eqn:Ad.
        -- rewrite without_in, C1, Ds. intros ((d1 & X & Y & Z) & N). apply some_inj in X as <-. congruence.
        -- rewrite C1, Ds. intros (d1 & X & Y & _). apply some_inj in X as <-. congruence.
    + injection L as <- <-. rewrite C1, Ds. reflexivity.
  - rewrite A. destruct (descs s fd) as [d|]; [|exact C2]. destruct (in_process d); [exact C2|]. destruct (in_active d); [|exact C2]. apply NoDup_filter', C2.
  - intros T. repeat constructor.
Qed.
Lemma with_act_self : forall d, with_act d (act d) = d.
Proof. intros []. reflexivity. Qed.
Lemma stages_local : forall ks s t p d s' e, stages s t p d ks = (s', e) -> exists l a r, walk d ks l a r /\ e = call (fst p) r ++ map (Ignored (fst p)) l /\
  match r with
  | Some (k, hd) => exists rest, s' = at_pc (put s (fst p) (Some (with_act d a))) t (InHandler p k rest) /\ (chain ks -> rest = rest_of k)
  | None => s' = finish s t p (with_act d a) AtActive
  end.
Proof.
  induction ks as [|k ks IH]; intros s t p d s' e E; cbn [stages] in E.
  - injection E as <- <-. exists [], (act d), None. split; [now constructor|]. split; [reflexivity|]. now rewrite with_act_self.
  - destruct (act d k) eqn:A.
    + destruct (hand d k) as [hd|] eqn:H.
      * injection E as <- <-. exists [], (act d), (Some (k, hd)). split; [now constructor|]. split; [reflexivity|]. exists ks. rewrite with_act_self. split; [reflexivity|]. intros C. now apply chain_tail.
      * destruct (stages s t p _ ks) as [s1 e1] eqn:S. injection E as <- <-. destruct (IH _ _ _ _ _ _ S) as (l & a & r & W & -> & R). exists (l ++ [k]), a, r. split; [now apply w_ignore|].
        split; [now rewrite map_app, app_assoc|]. destruct r as [[k1 hd]|]; [|exact R]. destruct R as (rest & -> & R). exists rest. split; [reflexivity|]. intros C. apply R. now apply chain_tail in C.
    + destruct (IH _ _ _ _ _ _ E) as (l & a & r & W & -> & R). exists l, a, r. split; [now apply w_skip|]. split; [reflexivity|]. destruct r as [[k1 hd]|]; [|exact R]. destruct R as (rest & -> & R).
      exists rest. split; [reflexivity|]. intros C. apply R. now apply chain_tail in C.
Qed.
Lemma finish_local : forall s t p d next, in_active d = false -> exists od w, (od, w) = lfinish d (epoll s (fst p)) /\ descs (finish s t p d next) (fst p) = od /\ epoll (finish s t p d next) (fst p) = w /\
  (forall fd', fd' <> fst p -> descs (finish s t p d next) fd' = descs s fd' /\ epoll (finish s t p d next) fd' = epoll s fd') /\
  active (finish s t p d next) = active s /\ broken (finish s t p d next) = broken s /\ pcs (finish s t p d next) = upd (pcs s) t (if broken s then Out else next).
Proof.
  intros s t p d next A. unfold finish, lfinish, goto, clear. destruct (is_clear d) eqn:C; do 2 eexists; (split; [reflexivity|]); cbn [put descs]; rewrite ?upd_same;
    cbn [with_marks in_process in_active at_pc put with_epoll with_active descs epoll active pcs broken]; rewrite ?A; cbn [at_pc put with_epoll with_active descs epoll active pcs broken]; rewrite !upd_same;
    (do 2 (split; [reflexivity|]); split; [intros fd' N; now rewrite !upd_other|auto]).
Qed.
Lemma busy_at_same : forall f g k rest, busy_at (InHandler (f, g) k rest) f = Some (g, Some k).
Proof. intros. cbn. now rewrite Nat.eqb_refl. Qed.
Lemma busy_at_other : forall f g k rest fd, fd <> f -> busy_at (InHandler (f, g) k rest) fd = None.
Proof. intros. cbn. destruct (Nat.eqb_spec f fd); congruence. Qed.
Lemma idle_busy : forall (b : bool) q fd, busy_at q fd = None -> busy_at (if b then Out else q) fd = None.
Proof. intros [] q fd E; [reflexivity|exact E]. Qed.
Definition idle_pc (q : pc) : Prop := match q with InHandler _ _ _ | InTimeout _ _ => False | _ => True end.
Lemma idle_pc_busy : forall q fd, idle_pc q -> busy_at q fd = None.
Proof. intros [] fd []; reflexivity. Qed.

Lemma inv_go : forall quick pers bound h s s' e, inv quick pers bound h s -> pcs s 0 = AtActive -> active s <> [] -> go s 0 = Next s' e -> inv quick pers bound (e ++ h) s' /\ calm s'.
Proof.
  intros quick pers bound h s s' e I P N0 E. unfold go in E. assert (I' := I). destruct I' as ((C1 & C2 & C3 & C4 & C5) & _). destruct (active s) as [|[fd g] l] eqn:As; [congruence|]. clear N0.
  inversion_clear C2 as [|? ? N1 N2]. destruct (proj1 (C1 fd g) (or_introl eq_refl)) as (d & D & Ad & Gd). unfold deref in E. cbn [fst snd] in E. rewrite D, Gd, Nat.eqb_refl in E.
  change (given_up (with_active s l)) with (gives_up (broken s)) in E. set (d1 := gives_up (broken s) (with_marks (with_deadline d None) true (is_clear d) false)) in *.
  assert (A1 : in_active d1 = false) by (unfold d1, gives_up; destruct (is_clear _ || broken s); reflexivity).
  assert (G1 : gen d1 = g) by (unfold d1, gives_up; destruct (is_clear _ || broken s); exact Gd).
  destruct (stages (with_active s l) 0 (fd, g) d1 [Recv; Send; Err]) as [s1 e1] eqn:S. injection E as <- <-. destruct (stages_local _ _ _ _ _ _ _ S) as (ig & a & r & W & -> & R). cbn [fst] in *.
  assert (Others : forall fd', fd' <> fd -> forall g', In (fd', g') l <-> In (fd', g') ((fd, g) :: l)) by (intros fd' Nf g'; cbn [In]; split; [auto|]; intros [X|X]; [congruence|exact X]).
  assert (Mine : forall g', ~ In (fd, g') l).
  { intros g' X. destruct (proj1 (C1 fd g') (or_intror X)) as (d2 & D2 & _ & Gd2). rewrite D in D2. apply some_inj in D2 as <-. rewrite Gd in Gd2. subst g'. now apply N1. }
  assert (Bz : forall f, busy_at (pcs s 0) f = None) by (intros f; now rewrite P).
  rewrite <- !app_assoc. replace (call fd r ++ map (Ignored fd) ig ++ [Served fd] ++ h) with ((call fd r ++ map (Ignored fd) ig ++ [Served fd]) ++ h) by (now rewrite <- !app_assoc).
  assert (Fl : Forall lasting (call fd r ++ map (Ignored fd) ig ++ [Served fd])).
  { apply Forall_app. split; [destruct r as [[]|]; repeat constructor|]. apply Forall_app. split; [|repeat constructor]. apply Forall_forall. intros x X. apply in_map_iff in X as (k & <- & _). exact Logic.I. }
  destruct r as [[k hd]|].
  - destruct R as (rest & -> & R). specialize (R (or_introl eq_refl)).
    split; [|unfold calm; cbn [at_pc pcs]; rewrite upd_same; exact Logic.I].
    apply (inv_local quick pers bound h s _ fd); cbn [at_pc put with_active descs epoll active pcs broken]; rewrite ?upd_same, ?Bz; try assumption; auto.
    + rewrite D, busy_at_same. eapply (l_go _ _ _ _ d _ (broken s) ig a (Some (k, hd))); [exact Ad|exact C4|reflexivity|exact W|]. rewrite Gd. auto.
    + intros fd' Nf. cbn [at_pc put with_active descs epoll active pcs broken]. rewrite !upd_other, upd_same, busy_at_other, Bz by exact Nf. do 3 (split; [reflexivity|]). intros g'. rewrite As. now apply Others.
    + intros g'. split; [intros X; destruct (Mine _ X)|]. intros (d2 & X & Y & _). apply some_inj in X as <-. cbn in Y. congruence.
  - subst s1. destruct (finish_local (with_active s l) 0 (fd, g) (with_act d1 a) AtActive) as (od & w & L & D' & W' & O' & A' & B' & P'); [exact A1|]. cbn [fst with_active epoll descs active broken pcs] in *.
    split; [|unfold calm; rewrite P', upd_same; destruct (broken s); exact Logic.I].
    apply (inv_local quick pers bound h s _ fd); rewrite ?D', ?W', ?A', ?B', ?P', ?upd_same, ?Bz; try assumption; auto.
    + rewrite D. rewrite idle_busy by reflexivity. eapply (l_go _ _ _ _ d _ (broken s) ig a None); [exact Ad|exact C4|reflexivity|exact W|]. auto.
    + intros fd' Nf. destruct (O' fd' Nf) as (-> & ->). rewrite P', upd_same, Bz, idle_busy by reflexivity. do 3 (split; [reflexivity|]). intros g'. rewrite A', As. now apply Others.
    + intros g'. split; [intros X; destruct (Mine _ X)|]. intros (d2 & X & Y & _). rewrite X in L. unfold lfinish in L. destruct (is_clear (with_act d1 a)); [discriminate|]. injection L as -> _. cbn in Y. congruence.
    + destruct (broken s); exact Logic.I.
Qed.
Lemma inv_back : forall quick pers bound h s s' e p k rest, inv quick pers bound h s -> pcs s 0 = InHandler p k rest -> back s 0 p k rest = Next s' e -> inv quick pers bound (e ++ h) s' /\ calm s'.
Proof.
  intros quick pers bound h s s' e [fd g] k0 rest I P E. unfold back in E. assert (I' := I). destruct I' as ((C1 & C2 & C3 & C4 & C5) & _). rewrite P in C3. subst rest.
  destruct (C5 fd) as (G & _). rewrite P, busy_at_same in G. unfold deref in E. cbn [fst snd] in E. destruct (descs s fd) as [d|] eqn:D; [|discriminate]. cbn [good] in G. destruct G as ((-> & Pd) & _ & Gact & _).
  rewrite Nat.eqb_refl in E. assert (Ad : in_active d = false) by (destruct (in_active d); [rewrite Gact in Pd by reflexivity; discriminate|reflexivity]).
  change (given_up s) with (gives_up (broken s)) in E. set (d1 := gives_up (broken s) (with_act d (upk (act d) k0 false))) in *.
  assert (A1 : in_active d1 = false) by (unfold d1, gives_up; destruct (is_clear _ || broken s); exact Ad).
  assert (G1 : gen d1 = gen d) by (unfold d1, gives_up; destruct (is_clear _ || broken s); reflexivity).
  destruct (stages s 0 (fd, gen d) d1 (rest_of k0)) as [s1 e1] eqn:S. injection E as <- <-. destruct (stages_local _ _ _ _ _ _ _ S) as (ig & a & r & W & -> & R). cbn [fst] in *.
  assert (Bz : forall f, f <> fd -> busy_at (pcs s 0) f = None) by (intros f Nf; rewrite P; now apply busy_at_other).
  assert (Fl : Forall lasting (call fd r ++ map (Ignored fd) ig)).
  { apply Forall_app. split; [destruct r as [[]|]; repeat constructor|]. apply Forall_forall. intros x X. apply in_map_iff in X as (k & <- & _). exact Logic.I. }
  destruct r as [[k hd]|].
  - destruct R as (rest & -> & R). specialize (R (or_intror (ex_intro _ k0 eq_refl))).
    split; [|unfold calm; cbn [at_pc pcs]; rewrite upd_same; exact Logic.I].
    apply (inv_local quick pers bound h s _ fd); cbn [at_pc put descs epoll active pcs broken]; rewrite ?upd_same; try assumption; auto.
    + rewrite D, P, !busy_at_same. eapply (l_back _ _ _ _ d _ k0 (broken s) ig a (Some (k, hd))); [exact C4|reflexivity|exact W|]. auto.
    + intros fd' Nf. cbn [at_pc put descs epoll active pcs broken]. rewrite !upd_other, upd_same, busy_at_other, Bz by exact Nf. do 3 (split; [reflexivity|]). reflexivity.
    + intros g'. rewrite C1, D. split; intros (d2 & X & Y & _); apply some_inj in X as <-; cbn in Y; congruence.
  - subst s1. destruct (finish_local s 0 (fd, gen d) (with_act d1 a) AtActive) as (od & w & L & D' & W' & O' & A' & B' & P'); [exact A1|]. cbn [fst] in *.
    split; [|unfold calm; rewrite P', upd_same; destruct (broken s); exact Logic.I].
    apply (inv_local quick pers bound h s _ fd); rewrite ?D', ?W', ?A', ?B', ?P', ?upd_same; try assumption; auto.
    + rewrite D, P, busy_at_same. rewrite idle_busy by reflexivity. eapply (l_back _ _ _ _ d _ k0 (broken s) ig a None); [exact C4|reflexivity|exact W|]. auto.
    + intros fd' Nf. destruct (O' fd' Nf) as (-> & ->). rewrite P', upd_same, Bz, idle_busy by (exact Nf || reflexivity). do 3 (split; [reflexivity|]). intros g'. now rewrite A'.
    + intros g'. rewrite C1, D. split; intros (d2 & X & Y & _); [apply some_inj in X as <-; congruence|]. rewrite X in L. unfold lfinish in L. destruct (is_clear (with_act d1 a)); [discriminate|]. injection L as -> _. cbn in Y. congruence.
    + destruct (broken s); exact Logic.I.
Qed.
Lemma inv_return : forall quick pers bound h s p now d, inv quick pers bound h s -> pcs s 0 = InTimeout p now -> deref s p = Some d ->
  inv quick pers bound h (finish s 0 p d (AtTimeout now)) /\ (calm s -> calm (finish s 0 p d (AtTimeout now))).
Proof.
  intros quick pers bound h s [fd g] now d I P E. assert (I' := I). destruct I' as ((C1 & C2 & C3 & C4 & C5) & _).
  destruct (C5 fd) as (G & _). rewrite P in G. cbn [busy_at] in G. rewrite Nat.eqb_refl in G. unfold deref in E. cbn [fst snd] in E. destruct (descs s fd) as [d0|] eqn:D; [|discriminate]. cbn [good] in G. destruct G as ((-> & Pd) & _ & Gact & _).
  rewrite Nat.eqb_refl in E. apply some_inj in E as ->. assert (Ad : in_active d = false) by (destruct (in_active d); [rewrite Gact in Pd by reflexivity; discriminate|reflexivity]).
  destruct (finish_local s 0 (fd, gen d) d (AtTimeout now) Ad) as (od & w & L & D' & W' & O' & A' & B' & P'). cbn [fst] in *.
  split; [|unfold calm; rewrite P', upd_same, P, A'; destruct (broken s); auto].
  apply (inv_local quick pers bound h s _ fd []); rewrite ?D', ?W', ?A', ?B', ?P', ?upd_same; try assumption; auto.
  - rewrite D, P. cbn [busy_at]. rewrite Nat.eqb_refl, idle_busy by reflexivity. now apply l_return.
  - intros fd' Nf. destruct (O' fd' Nf) as (-> & ->). rewrite P', upd_same, P, idle_busy by reflexivity. cbn [busy_at]. destruct (Nat.eqb_spec fd fd'); [congruence|]. do 3 (split; [reflexivity|]). intros g'. now rewrite A'.
  - intros g'. rewrite C1, D. split; intros (d2 & X & Y & _); [apply some_inj in X as <-; congruence|]. rewrite X in L. unfold lfinish in L. destruct (is_clear d); [discriminate|]. injection L as -> _. cbn in Y. congruence.
  - destruct (broken s); exact Logic.I.
Qed.
Lemma inv_event : forall quick pers bound h s x, inv quick pers bound h s -> about x = None -> allowed bound h x -> (x = Polled -> quick = true -> forall fd k, pending h fd k = false) -> inv quick pers bound (x :: h) s.
Proof.
  intros quick pers bound h s x (C & P & L & T) A Al Q. assert (C' := C). destruct C' as (_ & _ & C3 & C4 & _). split; [apply (core_still quick pers h s s [x]); auto|]. split; [split; assumption|].
  split; [split; [destruct x; easy|exact L]|]. intros X. split; [destruct x; auto|auto].
Qed.
Lemma due_desc : forall quick pers h s fd t, core quick pers h s -> due h fd = Some t -> exists d, descs s fd = Some d /\ deadline d = Some t.
Proof.
  intros quick pers h s fd t (_ & _ & _ & _ & C) D. destruct (C fd) as (G & _). destruct (descs s fd) as [d|]; cbn [good] in G; [|destruct G as (_ & _ & _ & G & _); congruence].
  destruct G as (_ & _ & _ & _ & G & _). exists d. split; [reflexivity|congruence].
Qed.
Lemma all_deadlines_due : forall quick pers h s bound f, core quick pers h s -> all_deadlines s (seq 0 bound) f = true -> forall fd t, fd < bound -> due h fd = Some t -> f t = true.
Proof.
  intros quick pers h s bound f C A fd t B D. destruct (due_desc _ _ _ _ _ _ C D) as (d & E & T). unfold all_deadlines in A. rewrite forallb_forall in A. specialize (A fd). rewrite E, T in A. apply A. apply in_seq. lia.
Qed.
Lemma inv_look : forall quick pers bound h s fd now d t0 s' e, inv quick pers bound h s -> (quick = true -> calm s) -> pcs s 0 = AtTimeout now -> descs s fd = Some d -> deadline d = Some t0 ->
  all_deadlines s (seq 0 bound) (N.leb t0) = true -> look s 0 fd now = Next s' e -> inv quick pers bound (e ++ h) s' /\ (quick = true -> calm s').
Proof.
  intros quick pers bound h s fd now d t0 s' e I Ca P D T AD E. unfold look in E. rewrite D, T in E. assert (I' := I). destruct I' as (C & _). assert (C' := C). destruct C' as (C1 & C2 & C3 & C4 & C5).
  destruct (C5 fd) as (G & _). rewrite D, P in G. cbn [busy_at good] in G. destruct G as (Gp & _ & _ & _ & Gd & Gc).
  assert (Cl : is_clear d = false). { destruct (is_clear d) eqn:Cl; [|reflexivity]. destruct (C5 fd) as (G & _). rewrite D, P in G. cbn [busy_at good] in G. destruct G as (_ & G & _). rewrite (G Cl) in Gp. discriminate. }
  rewrite Cl in Gc. destruct Gc as (Gt & _). rewrite T in Gd. symmetry in Gd.
  assert (Qa : quick = true -> active s = []). { intros X. specialize (Ca X). unfold calm in Ca. now rewrite P in Ca. }
  assert (Qi : quick = true -> in_active d = false).
  { intros X. specialize (Qa X). destruct (in_active d) eqn:Ad; [|reflexivity]. assert (Y : In (fd, gen d) (active s)) by (apply C1; exists d; auto). rewrite Qa in Y. destruct Y. }
  set (al := if in_active d then without (fd, gen d) (active s) else active s) in *.
  assert (Al1 : forall g, ~ In (fd, g) al).
  { intros g X. unfold al in X. destruct (in_active d) eqn:Ad.
    - apply without_in in X as (X & N). apply C1 in X as (d2 & X & _ & <-). rewrite D in X. apply some_inj in X as <-. now apply N.
    - apply C1 in X as (d2 & X & Y & _). rewrite D in X. apply some_inj in X as <-. congruence. }
  assert (Al2 : forall fd' g, fd' <> fd -> (In (fd', g) al <-> In (fd', g) (active s))).
  { intros fd' g N. unfold al. destruct (in_active d); [|reflexivity]. rewrite without_in. split; [easy|]. intros X. split; [exact X|congruence]. }
  assert (Al3 : NoDup al) by (unfold al; destruct (in_active d); [now apply NoDup_filter'|exact C2]).
  assert (Al4 : quick = true -> al = []). { intros X. unfold al. rewrite (Qa X). destruct (in_active d); reflexivity. }
  assert (Bz : forall f, busy_at (pcs s 0) f = None) by (intros f; now rewrite P).
  assert (Min : forall fd' t', fd' < bound -> due h fd' = Some t' -> (t0 <= t')%N). { intros fd' t' B X. apply N.leb_le. apply (all_deadlines_due _ _ _ _ _ _ C AD fd' t' B X). }
  cbn [with_marks in_process is_clear in_active with_deadline thand deadline gen] in E. destruct (N.ltb_spec now t0) as [Lt|Le].
  - injection E as <- <-. split.
    + apply inv_event; [|reflexivity| |discriminate].
      * apply (inv_local quick pers bound h s _ fd []); cbn [goto at_pc put with_active descs epoll active pcs broken]; rewrite ?upd_same, ?Bz; auto.
        -- rewrite idle_busy by reflexivity. rewrite D. apply l_look. exact Qi.
        -- intros fd' N. cbn [goto at_pc put with_active descs epoll active pcs broken]. rewrite upd_other, upd_same, Bz, idle_busy by (exact N || reflexivity). do 3 (split; [reflexivity|]). intros g. now apply Al2.
        -- intros g. split; [intros X; destruct (Al1 _ X)|]. intros (d2 & X & Y & _). apply some_inj in X as <-. discriminate.
        -- destruct (broken s); exact Logic.I.
      * intros fd' t' B X. specialize (Min fd' t' B X). lia.
    + intros X. unfold calm. cbn [goto at_pc put with_active active pcs broken]. rewrite upd_same, (Al4 X). destruct (broken s); reflexivity || exact Logic.I.
  - assert (Ex : allowed bound h (Expired fd (thand d) now)) by (split; [congruence|]; exists t0; auto).
    destruct (thand d) as [hd|] eqn:Th.
    + injection E as <- <-. split; [|intros X; unfold calm; cbn; exact (Al4 X)].
      apply (inv_local quick pers bound h s _ fd); cbn [goto at_pc put with_active descs epoll active pcs broken]; rewrite ?upd_same, ?Bz; auto; cbn [busy_at].
      * rewrite Nat.eqb_refl, D. rewrite <- Th. eapply l_expire; [exact Qi|rewrite Th; exact Ex|reflexivity|]. rewrite Th. auto.
      * intros fd' N. cbn [goto at_pc put with_active descs epoll active pcs broken]. rewrite upd_other, upd_same, Bz by exact N. cbn [busy_at]. destruct (Nat.eqb_spec fd fd'); [congruence|]. do 3 (split; [reflexivity|]). intros g. now apply Al2.
      * intros g. split; [intros X; destruct (Al1 _ X)|]. intros (d2 & X & Y & _). apply some_inj in X as <-. discriminate.
      * intros _. repeat constructor.
    + injection E as <- <-. match goal with |- context [finish ?s0 0 (fd, gen d) ?dx ?n] => destruct (finish_local s0 0 (fd, gen d) dx n eq_refl) as (od & w & L & D' & W' & O' & A' & B' & P') end. cbn [fst with_active descs epoll active broken pcs] in *.
      split; [|intros X; unfold calm; rewrite P', upd_same, A', (Al4 X); destruct (broken s); reflexivity || exact Logic.I].
      apply (inv_local quick pers bound h s _ fd); rewrite ?D', ?W', ?A', ?B', ?P', ?upd_same, ?Bz; auto.
      * rewrite idle_busy by reflexivity. rewrite D. rewrite <- Th. eapply l_expire; [exact Qi|rewrite Th; exact Ex|reflexivity|]. rewrite Th. auto.
      * intros fd' N. destruct (O' fd' N) as (-> & ->). rewrite P', upd_same, Bz, idle_busy by reflexivity. do 3 (split; [reflexivity|]). intros g. rewrite A'. now apply Al2.
      * intros g. split; [intros X; destruct (Al1 _ X)|]. intros (d2 & X & Y & _). rewrite X in L. unfold lfinish in L. cbn [is_clear] in L. rewrite Cl in L. injection L as -> _. discriminate.
      * destruct (broken s); exact Logic.I.
      * intros _. repeat constructor.
Qed.
Lemma note_local : forall fd ev s x k d, descs s fd = Some d -> exists s' d' w' x', note fd ev (s, x) k = (s', x') /\ lnote ev (d, epoll s fd, x) k = (d', w', x') /\ around fd s s' /\ descs s' fd = Some d' /\ epoll s' fd = w'.
Proof.
  intros fd ev s x k d D. unfold note, lnote. rewrite D. destruct (negb (ev k)); [exists s, d, (epoll s fd), x; auto 10 using around_refl|].
  destruct (in_active d || in_process d).
  - destruct (once d k && negb (act d k)).
    + destruct (around_append s fd d (only k) true (hand d k) true (epoll s fd) eq_refl) as (d' & w' & L & A & D' & W'). do 4 eexists. split; [reflexivity|]. rewrite L. auto.
    + exists s, d, (epoll s fd), x. auto 10 using around_refl.
  - do 4 eexists. split; [reflexivity|]. split; [reflexivity|]. apply around_put.
Qed.
Lemma report_local : forall s fd ev w d, epoll s fd = Some w -> descs s fd = Some d -> gen d = data_ptr w -> is_clear d = false ->
  report s fd ev = Stuck \/
  exists s', report s fd ev = Next s' (told fd ev) /\ armed w = true /\ (ev Recv = true -> mask w Recv = true) /\ (ev Send = true -> mask w Send = true) /\
    (exists d' w', lreport d w ev = (d', w') /\ descs s' fd = Some d' /\ epoll s' fd = w') /\ (forall fd', fd' <> fd -> descs s' fd' = descs s fd' /\ epoll s' fd' = epoll s fd') /\
    pcs s' = pcs s /\ broken s' = broken s /\ active s' = (if in_active d || in_process d then active s else active s ++ [(fd, gen d)]).
Proof.
  intros s fd ev w d W D G C. unfold report. rewrite W. destruct (armed w && _ && _) eqn:Ok; [right|now left]. apply andb_true_iff in Ok as (Ok & Ok3). apply andb_true_iff in Ok as (Ok1 & Ok2).
  set (s0 := if once_only w then with_epoll s fd (Some (mkW (mask w) true false (data_ptr w))) else s).
  assert (S0 : around fd s s0 /\ descs s0 fd = Some d /\ epoll s0 fd = Some (disarmed w)).
  { unfold s0, disarmed. destruct (once_only w); [|auto using around_refl]. cbn [with_epoll descs epoll]. rewrite upd_same. split; [|auto]. unfold around. cbn. split; [|auto]. intros fd' N. now rewrite upd_other. }
  destruct S0 as (A0 & D0 & W0). unfold deref. cbn [fst snd]. rewrite D0, G, Nat.eqb_refl, C. fold (told fd ev).
  destruct (note_local fd ev s0 false Recv d D0) as (s1 & d1 & w1 & x1 & N1 & L1 & A1 & D1 & W1). rewrite N1.
  destruct (note_local fd ev s1 x1 Send d1 D1) as (s2 & d2 & w2 & x2 & N2 & L2 & A2 & D2 & W2). rewrite N2.
  destruct (note_local fd ev s2 x2 Err d2 D2) as (s3 & d3 & w3 & x3 & N3 & L3 & A3 & D3 & W3). rewrite N3, D3.
  assert (A : around fd s s3) by (apply (around_trans _ _ s0 _ A0), (around_trans _ _ s1 _ A1), (around_trans _ _ s2 _ A2), A3).
  rewrite W0 in L1. rewrite W1 in L2. rewrite W2 in L3.
  assert (LR : lreport d w ev = if in_active d3 || in_process d3 then (d3, w3) else (with_marks d3 (in_process d3) (is_clear d3) true, if x3 then match w3 with Some _ => Some (mkW (want d3) (some_of (once d3)) true (gen d3)) | None => w3 end else w3)).
  { unfold lreport. fold (disarmed w). now rewrite L1, L2, L3. }
  assert (Same : forall dd ww xx kk d' w' x', lnote ev (dd, ww, xx) kk = (d', w', x') -> gen d' = gen dd /\ in_active d' = in_active dd /\ in_process d' = in_process dd).
  { intros dd ww xx kk d' w' x' E. unfold lnote in E. destruct (negb (ev kk)); [injection E as <- _ _; auto|]. destruct (in_active dd || in_process dd) eqn:B; [|injection E as <- _ _; auto].
    destruct (once dd kk && _); [unfold lappend in E|]; injection E as <- _ _; auto. }
  destruct (Same _ _ _ _ _ _ _ L1) as (Q1 & Q2 & Q3), (Same _ _ _ _ _ _ _ L2) as (Q4 & Q5 & Q6), (Same _ _ _ _ _ _ _ L3) as (Q7 & Q8 & Q9).
  replace (in_active d3) with (in_active d) in * by congruence. replace (in_process d3) with (in_process d) in * by congruence. assert (Gd : gen d3 = gen d) by congruence.
  assert (M1 : ev Recv = true -> mask w Recv = true) by (intros X; rewrite X in Ok2; exact Ok2). assert (M2 : ev Send = true -> mask w Send = true) by (intros X; rewrite X in Ok3; exact Ok3).
  destruct A as (B1 & B2 & B3 & B4). destruct (in_active d || in_process d) eqn:B.
  - exists s3. split; [reflexivity|]. do 3 (split; [assumption|]). split; [exists d3, w3; auto|]. auto.
  - set (s4 := put (with_active s3 (active s3 ++ [(fd, gen d3)])) fd (Some (with_marks d3 (in_process d) (is_clear d3) true))).
    assert (S4 : descs s4 fd = Some (with_marks d3 (in_process d) (is_clear d3) true) /\ epoll s4 fd = w3 /\ (forall fd', fd' <> fd -> descs s4 fd' = descs s fd' /\ epoll s4 fd' = epoll s fd') /\ pcs s4 = pcs s /\ broken s4 = broken s /\ active s4 = active s ++ [(fd, gen d)]).
    { unfold s4. cbn [put with_active descs epoll pcs broken active]. rewrite upd_same, B2, Gd. do 2 (split; [auto|]). split; [intros fd' N; rewrite upd_other by exact N; now apply B1|auto]. }
    destruct S4 as (P1 & P2 & P3 & P4 & P5 & P6). destruct x3.
    + destruct (around_ctl fd s4 (mkW (want d3) (some_of (once d3)) true (gen d3)) true) as ((R1 & R2 & R3 & R4) & R5 & R6). eexists. split; [reflexivity|]. do 3 (split; [assumption|]).
      split. { do 2 eexists. split; [exact LR|]. split; [congruence|]. rewrite R6, P2. destruct w3; reflexivity. }
      split. { intros fd' N. destruct (R1 fd' N) as (-> & ->). now apply P3. } split; [congruence|]. split; congruence.
    + exists s4. split; [reflexivity|]. do 3 (split; [assumption|]). split; [do 2 eexists; split; [exact LR|]; auto|]. split; [exact P3|]. split; [congruence|]. split; congruence.
Qed.
Lemma inv_report : forall quick pers bound h s fd ev, inv quick pers bound h s -> pcs s 0 = AtPoll -> (quick = true -> forall d, descs s fd = Some d -> in_active d = false) ->
  report s fd ev = Stuck \/ exists s', report s fd ev = Next s' (told fd ev) /\ inv quick pers bound (told fd ev ++ h) s' /\ pcs s' = pcs s /\ (forall fd', fd' <> fd -> descs s' fd' = descs s fd').
Proof.
  intros quick pers bound h s fd ev I P Q. assert (I' := I). destruct I' as ((C1 & C2 & C3 & C4 & C5) & _). destruct (C5 fd) as (G & _). rewrite P in G. cbn [busy_at] in G.
  destruct (epoll s fd) as [w|] eqn:W; [|unfold report; rewrite W; now left]. destruct (descs s fd) as [d|] eqn:D; cbn [good] in G; [|destruct G; discriminate]. destruct G as (Gp & _ & _ & Gw & _). destruct (Gw w eq_refl) as (Gd & Cl).
  destruct (report_local s fd ev w d W D (eq_sym Gd) Cl) as [S|(s' & S & Ar & M1 & M2 & (d' & w' & L & D' & W') & O & P' & B' & A')]; [now left|right].
  exists s'. split; [exact S|]. split; [|split; [exact P'|intros fd' N; now apply O]].
  assert (Lg : gen d' = gen d /\ in_active d' = true).
  { destruct (in_active d) eqn:AA; [destruct (lreport_active d w ev AA) as (d2 & w2 & E2 & F & B7 & _)|destruct (lreport_waiting d w ev AA Gp) as (d2 & w2 & E2 & F & B7 & _)]; rewrite E2 in L; injection L as <- <-; destruct F as (F & _); split; congruence. }
  destruct Lg as (Lg & La). apply (inv_local quick pers bound h s s' fd); rewrite ?D', ?W', ?P', ?B', ?P; auto; cbn [busy_at].
  - rewrite D, W. eapply l_report; eauto.
  - intros fd' N. destruct (O fd' N) as (-> & ->). rewrite P'. do 3 (split; [reflexivity|]). intros g. rewrite A'. destruct (in_active d || in_process d); [reflexivity|]. rewrite in_app_iff. cbn [In]. split; [intros [X|[X|[]]]; [exact X|congruence]|auto].
  - intros g. rewrite A', Gp, orb_false_r. split.
    + intros X. exists d'. split; [reflexivity|]. split; [exact La|]. destruct (in_active d).
      * apply C1 in X as (d2 & X & _ & <-). rewrite D in X. apply some_inj in X as <-. exact Lg.
      * apply in_app_iff in X as [X|[X|[]]]; [|congruence]. apply C1 in X as (d2 & X & _ & <-). rewrite D in X. apply some_inj in X as <-. exact Lg.
    + intros (d2 & X & _ & <-). apply some_inj in X as <-. rewrite Lg. destruct (in_active d) eqn:AA; [apply C1; exists d; auto|]. apply in_app_iff. right. now left.
  - rewrite A', Gp, orb_false_r. destruct (in_active d) eqn:AA; [exact C2|]. apply NoDup_rev in C2. rewrite <- (rev_involutive (active s ++ _)), rev_app_distr. apply NoDup_rev. cbn. constructor; [|exact C2].
    rewrite <- in_rev. intros X. apply C1 in X as (d2 & X & Y & _). rewrite D in X. apply some_inj in X as <-. congruence.
  - unfold told. intros _. destruct (ev Err), (ev Send), (ev Recv); repeat constructor.
Qed.
Lemma inv_reports : forall quick pers bound l h0 s e, inv quick pers bound (e ++ h0) s -> pcs s 0 = AtPoll -> (quick = true -> forall fd ev d, In (fd, ev) l -> descs s fd = Some d -> in_active d = false) ->
  reports s l e = Stuck \/ exists s' e', reports s l e = Next s' e' /\ inv quick pers bound (e' ++ h0) s' /\ pcs s' = pcs s.
Proof.
  intros quick pers bound l h0. induction l as [|[fd ev] l IH]; intros s e I P Q; cbn [reports]; [right; exists s, e; auto|].
  destruct (existsb _ l) eqn:X; [now left|]. destruct (inv_report quick pers bound (e ++ h0) s fd ev I P) as [S|(s' & S & I' & P' & O)].
  - intros T d D. apply (Q T fd ev d); [now left|exact D].
  - rewrite S. now left.
  - rewrite S. rewrite app_assoc in I'. destruct (IH s' (told fd ev ++ e) I') as [Y|(s2 & e2 & Y & I2 & P2)]; [congruence| |rewrite Y; now left|right; exists s2, e2; split; [exact Y|split; [exact I2|congruence]]].
    intros T fd' ev' d' In' D'. destruct (Nat.eq_dec fd' fd) as [->|N]; [|rewrite (O fd' N) in D'; apply (Q T fd' ev' d'); [now right|exact D']].
    exfalso. assert (Z : existsb (fun x => fd =? fst x) l = true) by (apply existsb_exists; exists (fd, ev'); split; [exact In'|apply Nat.eqb_refl]). congruence.
Qed.

Definition whole (quick pers : bool) (bound : nat) (h : list event) (s : st) : Prop := inv quick pers bound h s /\ (quick = true -> calm s).
Lemma whole_move : forall quick pers bound h s q, inv quick pers bound h s -> idle_pc (pcs s 0) -> idle_pc q -> (quick = true -> match q with ToTimeout | AtTimeout _ | AtPoll => active s = [] | _ => True end) -> whole quick pers bound h (goto s 0 q).
Proof.
  intros quick pers bound h s q I P Q A. split.
  - assert (I' := I). destruct I' as ((_ & _ & _ & C4 & _) & _). apply (inv_still quick pers bound h s); cbn [goto at_pc descs epoll active pcs broken]; rewrite ?upd_same; auto.
    + intros fd. rewrite idle_busy by (now apply idle_pc_busy). now rewrite idle_pc_busy.
    + destruct (broken s); [exact Logic.I|]. destruct q; easy.
  - intros T. specialize (A T). unfold calm. cbn [goto at_pc active pcs]. rewrite upd_same. destruct (broken s); [exact Logic.I|]. destruct q; easy.
Qed.
Lemma pending_calm : forall pers bound h s, inv true pers bound h s -> pcs s 0 = AtPoll -> active s = [] -> forall fd k, pending h fd k = false.
Proof.
  intros pers bound h s ((C1 & _ & _ & _ & C5) & _) P A fd k. destruct (pending h fd k) eqn:E; [|reflexivity]. destruct (C5 fd) as (_ & _ & _ & S). destruct (S eq_refl k E) as (d & D & _ & [X|(k0 & X & _)]).
  - assert (Y : In (fd, gen d) (active s)) by (apply C1; exists d; auto). rewrite A in Y. destruct Y.
  - rewrite P in X. discriminate.
Qed.
Lemma whole_step : forall quick pers bound h s l, whole quick pers bound h s -> solo l -> (quick = true -> undisturbed l) -> (pers = true -> persistent l) ->
  match step bound s l with Fault => False | Next s' e => whole quick pers bound (e ++ h) s' | _ => True end.
Proof.
  intros quick pers bound h s l (I & Ca) So Un Pe. assert (I' := I). destruct I' as (C & _). assert (C' := C). destruct C' as (C1 & C2 & C3 & C4 & C5).
  destruct l as [fd f o a t hd|fd|fd hd| |t|t|t|t|t now|t fd|t|t l|t]; cbn [step solo] in *; try subst t.
  - destruct (set_fd s fd f o a t hd) as [s'|] eqn:E; [|exact Logic.I]. destruct (inv_set _ _ _ _ _ _ _ _ _ _ _ _ I E Pe) as (I' & A & P). split; [exact I'|]. intros T. specialize (Ca T). unfold calm in *. now rewrite P, A.
  - destruct (inv_clear quick pers bound h s fd I) as (I' & P & A). split; [exact I'|]. intros T. specialize (Ca T). unfold calm in *. rewrite P. destruct (pcs s 0); auto.
  - destruct (descs s fd) as [d|] eqn:D; [|exact Logic.I]. destruct (is_clear d) eqn:Cl; [exact Logic.I|].
    split. { apply (inv_local quick pers bound h s _ fd [TimeoutHandler fd hd]); cbn [put descs epoll active pcs broken]; rewrite ?upd_same; auto.
      - rewrite D, <- Cl. now apply l_handler.
      - intros fd' N. cbn [put descs epoll active pcs broken]. rewrite upd_other by exact N. intuition.
      - intros g. rewrite C1, D. split; intros (d2 & X & Y & Z); apply some_inj in X as <-; cbn in Y, Z; eexists; (split; [reflexivity|]); auto.
    }
    intros T. exact (Ca T).
  - split; [|intros T; destruct (Un T)]. apply (inv_still quick pers bound h s); auto. intros T. destruct (Un T).
  - destruct (pcs s 0) eqn:P; try exact Logic.I. apply whole_move; rewrite ?P; try exact Logic.I; auto.
  - destruct (pcs s 0) eqn:P; try exact Logic.I; (apply whole_move; rewrite ?P; try exact Logic.I; auto; intros T; destruct (Un T)).
  - destruct (pcs s 0) eqn:P; try exact Logic.I. destruct (active s) as [|p0 l0] eqn:A.
    + unfold go. rewrite A. apply whole_move; rewrite ?P; try exact Logic.I; auto.
    + destruct (go s 0) as [| | |s' e] eqn:E; try exact Logic.I.
      * unfold go in E. rewrite A in E. destruct p0 as [fd g]. destruct (proj1 (C1 fd g)) as (d & D & _ & Gd); [now left|]. unfold deref in E. cbn [fst snd] in E. rewrite D, Gd, Nat.eqb_refl in E.
        destruct (stages _ _ _ _ _); discriminate.
      * destruct (inv_go quick pers bound h s s' e I P) as (I' & Ca'); [congruence|exact E|]. split; auto.
  - destruct (pcs s 0) as [| |p k rest| | |p now| |] eqn:P; try exact Logic.I.
    + destruct (back s 0 p k rest) as [| | |s' e] eqn:E; try exact Logic.I.
      * unfold back in E. destruct p as [fd g]. destruct (C5 fd) as (G & _). rewrite busy_at_same in G. unfold deref in E. cbn [fst snd] in E. destruct (descs s fd) as [d|]; cbn [good] in G; [|destruct G as (_ & G & _); discriminate].
        destruct G as ((-> & _) & _). rewrite Nat.eqb_refl in E. destruct (stages _ _ _ _ _); discriminate.
      * destruct (inv_back quick pers bound h s s' e p k rest I P E) as (I' & Ca'). split; auto.
    + destruct (deref s p) as [d|] eqn:E.
      * destruct (inv_return quick pers bound h s p now d I P E) as (I' & Ca'). split; auto.
      * destruct p as [fd g]. destruct (C5 fd) as (G & _). cbn [busy_at] in G. rewrite Nat.eqb_refl in G. unfold deref in E. cbn [fst snd] in E. destruct (descs s fd) as [d|]; cbn [good] in G; [|destruct G as (_ & G & _); discriminate].
        destruct G as ((-> & _) & _). rewrite Nat.eqb_refl in E. discriminate.
  - destruct (pcs s 0) eqn:P; try exact Logic.I. split.
    + apply (inv_still quick pers bound h s); cbn [at_pc descs epoll active pcs broken]; rewrite ?upd_same; auto. intros fd. now rewrite P.
    + intros T. specialize (Ca T). unfold calm in *. rewrite P in Ca. cbn. exact Ca.
  - destruct (pcs s 0) eqn:P; try exact Logic.I. destruct (descs s fd) as [d|] eqn:D; [|exact Logic.I]. destruct (deadline d) as [t0|] eqn:T0; [|exact Logic.I].
    destruct (all_deadlines s (seq 0 bound) (N.leb t0)) eqn:AD; [|exact Logic.I]. destruct (look s 0 fd now) as [| | |s' e] eqn:E; try exact Logic.I.
    + unfold look in E. rewrite D, T0 in E. destruct (N.ltb _ _); [discriminate|]. destruct (thand _); discriminate.
    + destruct (inv_look quick pers bound h s fd now d t0 s' e) as (I' & Ca'); auto. split; auto.
  - destruct (pcs s 0) eqn:P; try exact Logic.I. destruct (all_deadlines _ _ _) eqn:AD; [|exact Logic.I].
    apply whole_move; rewrite ?P; try exact Logic.I.
    + apply inv_event; [exact I|reflexivity| |discriminate]. intros fd t B D. assert (X := all_deadlines_due _ _ _ _ _ _ C AD fd t B D). discriminate.
    + intros T. specialize (Ca T). unfold calm in Ca. now rewrite P in Ca.
  - destruct (pcs s 0) eqn:P; try exact Logic.I.
    assert (Qa : quick = true -> active s = []) by (intros T; specialize (Ca T); unfold calm in Ca; now rewrite P in Ca).
    assert (I1 : inv quick pers bound ([Polled] ++ h) s). { apply inv_event; [exact I|reflexivity|exact Logic.I|]. intros _ T. subst quick. apply (pending_calm pers bound h s I P (Qa eq_refl)). }
    destruct (inv_reports quick pers bound l h s [Polled] I1 P) as [S|(s' & e & S & I2 & P2)].
    + intros T fd ev d _ D. destruct (in_active d) eqn:Ad; [|reflexivity]. assert (Y : In (fd, gen d) (active s)) by (apply C1; exists d; auto). rewrite (Qa T) in Y. destruct Y.
    + rewrite S. exact Logic.I.
    + rewrite S. apply whole_move; rewrite ?P2, ?P; try exact Logic.I; auto.
  - destruct (pcs s 0) eqn:P; try exact Logic.I. apply whole_move; rewrite ?P; try exact Logic.I; auto.
    apply inv_event; [exact I|reflexivity|exact Logic.I|]. intros _ T. subst quick. apply (pending_calm pers bound h s I P). specialize (Ca eq_refl). unfold calm in Ca. now rewrite P in Ca.
Qed.
Lemma whole_new : forall quick pers bound, whole quick pers bound [] event_new.
Proof.
  intros quick pers bound. split; [|intros _; exact Logic.I]. split; [|repeat split]. split; [cbn; intros fd g; split; [intros []|intros (d & X & _); discriminate]|].
  split; [constructor|]. split; [exact Logic.I|]. split; [reflexivity|]. intros fd. cbn. split; [auto 10|]. split; [intros d k n X; discriminate|]. split; [intros _ d X; discriminate|intros _ k X; discriminate].
Qed.
Lemma whole_run : forall quick pers bound ls h s, whole quick pers bound h s -> Forall solo ls -> (quick = true -> Forall undisturbed ls) -> (pers = true -> Forall persistent ls) ->
  match run bound s h ls with Fault => False | Next s' h' => whole quick pers bound h' s' | _ => True end.
Proof.
  intros quick pers bound ls. induction ls as [|l ls IH]; intros h s W So Un Pe; [exact W|]. cbn [run].
  assert (X := whole_step quick pers bound h s l W (Forall_inv So) (fun T => Forall_inv (Un T)) (fun T => Forall_inv (Pe T))). destruct (step bound s l) as [| | |s' e]; auto.
  apply IH; [exact X|exact (Forall_inv_tail So)|intros T; exact (Forall_inv_tail (Un T))|intros T; exact (Forall_inv_tail (Pe T))].
Qed.

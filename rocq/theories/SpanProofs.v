(** * Spans: proofs *)

From Coq Require Import List Arith NArith Bool Sorted Lia ZifyBool ZifyNat ZifyN.
From Verif Require Import Base SpanModel SpanSpec.
Import ListNotations.

Section Proofs.

Variable site : Type.
Notation node := (node site).
Notation heap := (heap site).
Notation mkN := (mkN site).
Notation event := (event site).
Notation call := (call site).
Notation state := (state site).

(** ** Trees with addresses *)

Inductive itree : Type := IT (i : nat) (s : site) (t0 t1 : N) (subs : list itree).

Section Ind.
Variable P : itree -> Prop.
Hypothesis H : forall i s t0 t1 subs, Forall P subs -> P (IT i s t0 t1 subs).
Fixpoint itree_ind' (t : itree) : P t :=
  match t with
  | IT i s t0 t1 subs => H i s t0 t1 subs
      ((fix go (l : list itree) : Forall P l :=
          match l with [] => Forall_nil _ | u :: l' => Forall_cons _ (itree_ind' u) (go l') end) subs)
  end.
End Ind.

Definition iid (t : itree) : nat := match t with IT i _ _ _ _ => i end.
Fixpoint ids (t : itree) : list nat := match t with IT i _ _ _ subs => i :: flat_map ids subs end.
Fixpoint erase (t : itree) : call := match t with IT _ s t0 t1 subs => Call site s t0 t1 (map erase subs) end.

Definition hd_id (l : list itree) : option nat := match l with [] => None | u :: _ => Some (iid u) end.
Fixpoint last_id (d : option nat) (l : list itree) : option nat :=
  match l with [] => d | u :: l' => last_id (Some (iid u)) l' end.

Fixpoint shape (h : heap) (par prev next : option nat) (t : itree) {struct t} : Prop :=
  match t with
  | IT i s t0 t1 subs =>
      h i = Some (mkN s t0 t1 (hd_id subs) (last_id None subs) par prev next) /\
      (fix go (prev : option nat) (l : list itree) : Prop :=
         match l with
         | [] => True
         | u :: l' => shape h (Some i) prev (hd_id l') u /\ go (Some (iid u)) l'
         end) None subs
  end.

Fixpoint chain (h : heap) (i : nat) (prev : option nat) (l : list itree) : Prop :=
  match l with
  | [] => True
  | u :: l' => shape h (Some i) prev (hd_id l') u /\ chain h i (Some (iid u)) l'
  end.

Lemma chain_go h i : forall l prev,
  ((fix go (prev : option nat) (l : list itree) : Prop :=
         match l with
         | [] => True
         | u :: l' => shape h (Some i) prev (hd_id l') u /\ go (Some (iid u)) l'
         end) prev l) = chain h i prev l.
Proof. induction l; intros; [reflexivity|]. cbn [chain]. now rewrite IHl. Qed.

Lemma shape_eq h par prev next i s t0 t1 subs :
  shape h par prev next (IT i s t0 t1 subs) <->
  h i = Some (mkN s t0 t1 (hd_id subs) (last_id None subs) par prev next) /\ chain h i None subs.
Proof. cbn [shape]. rewrite chain_go. reflexivity. Qed.

Lemma iid_ids t : In (iid t) (ids t).
Proof. destruct t. now left. Qed.

Lemma shape_frame h h' : forall t par prev next,
  (forall i, In i (ids t) -> h' i = h i) -> shape h par prev next t -> shape h' par prev next t.
Proof.
  induction t as [i s t0 t1 subs IH] using itree_ind'. intros par prev next F S.
  apply shape_eq in S. destruct S as [S C]. apply shape_eq. split.
  - rewrite F; [exact S|now left].
  - assert (F' : forall j, In j (flat_map ids subs) -> h' j = h j) by (intros; apply F; now right).
    clear F S. revert C. generalize (@None nat). revert IH F'. induction subs as [|u l IHl]; intros IH F' p C; [exact I|].
    destruct C as [C1 C2]. inversion IH; subst. split.
    + apply H1; [|exact C1]. intros j Hj. apply F'. apply in_or_app. now left.
    + apply IHl; auto. intros j Hj. apply F'. apply in_or_app. now right.
Qed.

Lemma chain_frame h h' i : forall l prev,
  (forall j, In j (flat_map ids l) -> h' j = h j) -> chain h i prev l -> chain h' i prev l.
Proof.
  induction l as [|u l IH]; intros prev F C; [exact I|]. destruct C as [C1 C2]. split.
  - apply (shape_frame h); [|exact C1]. intros j Hj. apply F. apply in_or_app. now left.
  - apply IH; auto. intros j Hj. apply F. apply in_or_app. now right.
Qed.

Lemma hd_id_app l u u' : iid u = iid u' -> hd_id (l ++ [u]) = hd_id (l ++ [u']).
Proof. destruct l; cbn; congruence. Qed.
Lemma last_id_app l u d : last_id d (l ++ [u]) = Some (iid u).
Proof. revert d. induction l; intros; cbn; auto. Qed.

(** The last child replaced. *)
Lemma chain_replace h h' i u u' : iid u = iid u' ->
  (forall p, shape h (Some i) p None u -> shape h' (Some i) p None u') ->
  forall l prev, (forall j, In j (flat_map ids l) -> h' j = h j) ->
  chain h i prev (l ++ [u]) -> chain h' i prev (l ++ [u']).
Proof.
  intros E R. induction l as [|v l IH]; intros prev F C.
  - destruct C as [C _]. split; [|exact I]. now apply R.
  - cbn [app] in *. destruct C as [C1 C2]. split.
    + rewrite <- (hd_id_app l u u' E). apply (shape_frame h); [|exact C1].
      intros j Hj. apply F. apply in_or_app. now left.
    + apply IH; auto. intros j Hj. apply F. apply in_or_app. now right.
Qed.

(** ** Calls that go on, with addresses *)

Definition iframe : Type := (nat * site * N * list itree)%type.
Definition fid (f : iframe) : nat := match f with (i, _, _, _) => i end.
Definition fids (f : iframe) : list nat := match f with (i, _, _, l) => i :: flat_map ids l end.
Definition close (f : iframe) (t : N) (extra : list itree) : itree :=
  match f with (i, s, t0, l) => IT i s t0 t (l ++ extra) end.

(** [u] as the last child of the frames, the outermost first. *)
Fixpoint plug (fs : list iframe) (u : itree) : itree :=
  match fs with
  | [] => u
  | f :: fs' => close f 0 [plug fs' u]
  end.

Lemma plug_app fs f u : plug (fs ++ [f]) u = plug fs (close f 0 [u]).
Proof. induction fs as [|g fs IH]; cbn [plug app]; [reflexivity|]. now rewrite IH. Qed.

Lemma iid_close f t x : iid (close f t x) = fid f.
Proof. destruct f as [[[? ?] ?] ?]. reflexivity. Qed.

Lemma iid_plug fs u u' : iid u = iid u' -> iid (plug fs u) = iid (plug fs u').
Proof. destruct fs; cbn [plug]; auto. intros _. now rewrite !iid_close. Qed.

Lemma plug_replace h h' u u' : iid u = iid u' ->
  (forall par p, shape h par p None u -> shape h' par p None u') ->
  forall fs par prev, (forall j, In j (flat_map fids fs) -> h' j = h j) ->
  shape h par prev None (plug fs u) -> shape h' par prev None (plug fs u').
Proof.
  intros E R. induction fs as [|[[[i s] t0] l] fs IH]; intros par prev F S; cbn [plug] in *; [now apply R|].
  unfold close in *. apply shape_eq in S. destruct S as [S C]. apply shape_eq.
  pose proof (iid_plug fs u u' E) as EP. split.
  - rewrite <- (hd_id_app l _ _ EP). rewrite last_id_app in *. rewrite <- EP.
    rewrite F; [exact S|]. cbn [flat_map]. apply in_or_app. left. now left.
  - apply (chain_replace h h' i (plug fs u) (plug fs u') EP).
    + intros p Hp. apply IH; auto. intros j Hj. apply F. cbn [flat_map]. apply in_or_app. now right.
    + intros j Hj. apply F. cbn [flat_map]. apply in_or_app. left. now right.
    + exact C.
Qed.

Lemma plug_sub h u : forall fs par prev, shape h par prev None (plug fs u) ->
  exists par' p', shape h par' p' None u.
Proof.
  induction fs as [|[[[i s] t0] l] fs IH]; intros par prev S; cbn [plug] in S; [eauto|].
  unfold close in S. apply shape_eq in S. destruct S as [_ C].
  assert (K : forall q, chain h i q (l ++ [plug fs u]) -> exists par' p', shape h par' p' None u).
  { clear C. induction l as [|v l IHl]; intros q C; destruct C as [C1 C2]; [apply (IH _ _ C1)|apply (IHl _ C2)]. }
  exact (K None C).
Qed.

Lemma ids_plug fs u : forall j, In j (ids (plug fs u)) <-> In j (flat_map fids fs) \/ In j (ids u).
Proof.
  induction fs as [|[[[i s] t0] l] fs IH]; intros j; cbn [plug flat_map]; [cbn [In]; tauto|].
  unfold close. cbn [ids fids]. rewrite flat_map_app. cbn [flat_map]. rewrite app_nil_r.
  cbn [In]. rewrite !in_app_iff, IH. cbn [In]. tauto.
Qed.

Lemma nodup_plug fs u : NoDup (ids (plug fs u)) -> NoDup (ids u) /\
  forall j, In j (ids u) -> ~ In j (flat_map fids fs).
Proof.
  induction fs as [|[[[i s] t0] l] fs IH]; intros N; cbn [plug flat_map] in *; [auto|].
  unfold close in N. cbn [ids fids] in *. rewrite flat_map_app in N. cbn [flat_map] in N. rewrite app_nil_r in N.
  inversion N; subst. assert (N2 : NoDup (ids (plug fs u))).
  { clear - H2. induction (flat_map ids l); auto. apply IHl0. now inversion H2. }
  destruct (IH N2) as [A B]. split; [exact A|]. intros j Hj K.
  assert (Hp : In j (ids (plug fs u))) by (apply ids_plug; now right).
  change ((i :: flat_map ids l) ++ flat_map fids fs) with (i :: (flat_map ids l ++ flat_map fids fs)) in K.
  destruct K as [->|K].
  - apply H1. apply in_or_app. now right.
  - apply in_app_or in K. destruct K as [K|K]; [|now apply (B j)].
    clear - H2 K Hp. induction (flat_map ids l) as [|x r IH]; [destruct K|].
    cbn [app] in H2. inversion H2; subst. destruct K as [->|K]; [|now apply IH].
    apply H1. apply in_or_app. now right.
Qed.

(** ** Entering *)

Lemma put_same (h : heap) i n : put site h i n i = n.
Proof. unfold put. now rewrite Nat.eqb_refl. Qed.
Lemma put_other (h : heap) i n j : j <> i -> put site h i n j = h j.
Proof. intros H. unfold put. destruct (Nat.eqb_spec j i); [contradiction|reflexivity]. Qed.

Definition leaf (i : nat) (s : site) (t : N) : itree := IT i s t 0 [].

Lemma set_next_next (n : node) a b : set_next site (set_next site n a) b = set_next site n b.
Proof. reflexivity. Qed.

(** What entering does to the heap, as seen from the innermost call [x]. *)
Definition entered (h h' : heap) (x new : nat) (s : site) (t : N) (subs : list itree) : Prop :=
  (forall j, j <> new -> j <> x -> Some j <> last_id None subs -> h' j = h j) /\
  (forall n, h x = Some n -> h' x = Some (set_subs site n (match hd_id subs with None => Some new | o => o end) (Some new))) /\
  (forall k n, last_id None subs = Some k -> h k = Some n -> h' k = Some (set_next site n (Some new))) /\
  h' new = Some (mkN s t 0 None None (Some x) (last_id None subs) None).

Lemma last_in : forall l d k, last_id d l = Some k -> d = Some k \/ exists u, In u l /\ iid u = k.
Proof.
  induction l as [|u l IH]; intros d k H; cbn [last_id] in H; [auto|].
  apply IH in H. destruct H as [H|(v & Hv & E)].
  - injection H as <-. right. exists u. split; [now left|reflexivity].
  - right. exists v. split; [now right|exact E].
Qed.

Lemma last_none l d : last_id d l = None -> l = [] /\ d = None.
Proof.
  revert d. induction l as [|u l IH]; intros d H; [auto|]. cbn [last_id] in H. apply IH in H. destruct H. discriminate.
Qed.

Lemma root_cell h par prev next t : shape h par prev next t -> exists n, h (iid t) = Some n.
Proof. destruct t. intros S. apply shape_eq in S. destruct S as [S _]. eexists. exact S. Qed.

Lemma chain_cell h i : forall l prev u, chain h i prev l -> In u l -> exists n, h (iid u) = Some n.
Proof.
  induction l as [|v l IH]; intros prev u C Hu; [destruct Hu|]. destruct C as [C1 C2].
  destruct Hu as [->|Hu]; [now apply root_cell in C1|]. now apply (IH _ _ C2).
Qed.

(** The chain of the children with a new last one. *)
Lemma chain_add_ok h h' x new s t : forall l prev,
  NoDup (flat_map ids l) -> ~ In new (flat_map ids l) ->
  (forall j, In j (flat_map ids l) -> Some j <> last_id prev l -> h' j = h j) ->
  (forall k n, last_id prev l = Some k -> l <> [] -> h k = Some n -> h' k = Some (set_next site n (Some new))) ->
  h' new = Some (mkN s t 0 None None (Some x) (last_id prev l) None) ->
  chain h x prev l -> chain h' x prev (l ++ [leaf new s t]).
Proof.
  induction l as [|u l IH]; intros prev ND NI F1 F2 F3 C.
  - cbn [app chain]. split; [|exact I]. cbn [hd_id last_id] in *. apply shape_eq. split; [exact F3|exact I].
  - cbn [app]. destruct C as [C1 C2]. cbn [flat_map] in *. cbn [last_id] in *.
    destruct l as [|v l].
    + cbn [app hd_id chain last_id] in *. split.
      * destruct u as [i si t0 t1 subs]. cbn [iid] in *. apply shape_eq in C1. destruct C1 as [C1 C1'].
        apply shape_eq. split.
        -- rewrite (F2 i _ eq_refl ltac:(discriminate) C1). reflexivity.
        -- apply (chain_frame h); [|exact C1']. intros j Hj. apply F1.
           ++ cbn [ids app]. right. rewrite app_nil_r. exact Hj.
           ++ intros E. injection E as ->. rewrite app_nil_r in ND. cbn [ids] in ND. inversion ND; subst. contradiction.
      * split; [|exact I]. apply shape_eq. split; [exact F3|exact I].
    + assert (NDl : NoDup (flat_map ids (v :: l))).
      { clear - ND. induction (ids u); auto. apply IHl0. now inversion ND. }
      assert (DJ : forall j, In j (ids u) -> ~ In j (flat_map ids (v :: l))).
      { clear - ND. induction (ids u) as [|y r IH]; intros j Hj K; [destruct Hj|]. cbn [app] in ND. inversion ND; subst.
        destruct Hj as [->|Hj]; [apply H1; apply in_or_app; now right|]. now apply (IH H2 j). }
      assert (LIN : forall k, last_id (Some (iid u)) (v :: l) = Some k -> In k (flat_map ids (v :: l))).
      { intros k Hk. cbn [last_id] in Hk. apply last_in in Hk. apply in_flat_map. destruct Hk as [Hk|(w & Hw & <-)].
        - injection Hk as <-. exists v. split; [now left|apply iid_ids].
        - exists w. split; [now right|apply iid_ids]. }
      split.
      * apply (shape_frame h); [|exact C1]. intros j Hj. apply F1; [apply in_or_app; now left|].
        intros E. symmetry in E. apply LIN in E. now apply (DJ j).
      * apply IH; auto.
        -- intros K. apply NI. apply in_or_app. now right.
        -- intros j Hj. apply F1. apply in_or_app. now right.
        -- intros k n Hk _. apply F2; [exact Hk|discriminate].
Qed.

Lemma enter_shape h h' x new s t par prev s0 t0 t1 subs :
  entered h h' x new s t subs -> NoDup (ids (IT x s0 t0 t1 subs)) -> ~ In new (ids (IT x s0 t0 t1 subs)) ->
  shape h par prev None (IT x s0 t0 t1 subs) ->
  shape h' par prev None (IT x s0 t0 t1 (subs ++ [leaf new s t])).
Proof.
  intros (E1 & E2 & E3 & E4) ND NI S. apply shape_eq in S. destruct S as [S C]. cbn [ids] in ND, NI.
  inversion ND; subst. apply shape_eq. split.
  - rewrite (E2 _ S). rewrite last_id_app. unfold set_subs. cbn. f_equal. f_equal. destruct subs; reflexivity.
  - apply (chain_add_ok h h' x new s t subs None).
    + assumption.
    + intros K. apply NI. now right.
    + intros j Hj Hl. apply E1; [| |exact Hl]; intros ->; [apply NI; now right|contradiction].
    + intros k n Hk _. now apply E3.
    + exact E4.
    + exact C.
Qed.

Lemma open_shape h par prev f : forall t, shape h par prev None (close f t []) ->
  match f with (i, s, t0, l) => shape h par prev None (IT i s t0 t l) end.
Proof. destruct f as [[[i s] t0] l]. intros t. unfold close. now rewrite app_nil_r. Qed.

Lemma span_entry_ok st x stk s t n subs : s_stack site st = x :: stk ->
  s_heap site st x = Some n -> s_heap site st (s_fresh site st) = None ->
  n_head site n = hd_id subs -> n_tail site n = last_id None subs ->
  (forall k, last_id None subs = Some k -> k <> x /\ exists nk, s_heap site st k = Some nk) ->
  s_root site st <> None ->
  exists h', span_entry site st true s t =
    Some (mkS site h' (S (s_fresh site st)) (s_fresh site st :: x :: stk) (s_root site st)) /\
    entered (s_heap site st) h' x (s_fresh site st) s t subs.
Proof.
  intros Hs Hx Hf Hh Ht Hk Hr. unfold span_entry, span_new. cbn [negb]. rewrite Hs. cbn [hd_error].
  set (new := s_fresh site st) in *. set (h := s_heap site st) in *.
  assert (Nx : x <> new) by congruence.
  unfold chain_add. rewrite put_same. cbn [obind].
  rewrite (put_other _ new _ x Nx), (put_other _ new _ x Nx), Hx. cbn [obind]. rewrite Hh.
  destruct (s_root site st) as [r|]; [clear Hr|congruence].
  destruct subs as [|u l]; cbn [hd_id].
  - cbn [obind s_heap s_root s_fresh]. rewrite (put_other _ x _ new) by auto. rewrite !put_same. cbn [obind].
    eexists. split; [reflexivity|]. split; [|split; [|split]].
    + intros j J1 J2 _. now rewrite !put_other by auto.
    + intros m Hm. fold h in Hm. rewrite Hx in Hm. injection Hm as <-. rewrite put_other by auto. rewrite put_same. reflexivity.
    + intros k m Hk'. discriminate.
    + now rewrite put_same.
  - cbn [last_id] in *. destruct (last_id (Some (iid u)) l) as [k|] eqn:EL.
    2:{ apply last_none in EL. destruct EL. discriminate. }
    destruct (Hk k eq_refl) as [Kx [nk Hnk]]. rewrite Ht. cbn [obind].
    assert (Kn : k <> new) by (intros ->; fold h in Hnk; congruence).
    rewrite (put_other _ new _ k Kn), (put_other _ new _ k Kn). rewrite Hnk. cbn [obind].
    rewrite (put_other _ k _ new) by auto. rewrite put_same. cbn [obind].
    rewrite (put_other _ new _ x) by auto. rewrite (put_other _ k _ x) by auto.
    rewrite (put_other _ new _ x), (put_other _ new _ x) by auto. rewrite Hx. cbn [obind s_heap s_root s_fresh].
    rewrite (put_other _ x _ new) by auto. rewrite put_same. cbn [obind].
    eexists. split; [reflexivity|]. split; [|split; [|split]].
    + intros j J1 J2 J3. assert (j <> k) by (intros ->; now apply J3; rewrite <- EL). now rewrite !put_other by auto.
    + intros m Hm. rewrite Hx in Hm. injection Hm as <-. rewrite put_other by auto. rewrite put_same. unfold set_subs. cbn. rewrite Hh. reflexivity.
    + intros k' m Hk' Hm. cbn [last_id] in Hk'. rewrite EL in Hk'. injection Hk' as <-. fold h in Hnk. rewrite Hnk in Hm. injection Hm as <-.
      rewrite (put_other _ new _ k) by auto. rewrite (put_other _ x _ k) by auto. rewrite (put_other _ new _ k) by auto. now rewrite put_same.
    + rewrite put_same. cbn [last_id]. rewrite EL. reflexivity.
Qed.

(** ** The invariant *)

Definition top_of (fs : list iframe) (f : iframe) : itree := plug fs (close f 0 []).

Definition inv (st : state) (fs : list iframe) (f : iframe) : Prop :=
  s_stack site st = rev (map fid (fs ++ [f])) /\
  s_root site st = Some (iid (top_of fs f)) /\
  shape (s_heap site st) None None None (top_of fs f) /\
  NoDup (ids (top_of fs f)) /\
  (forall j, In j (ids (top_of fs f)) <-> s_heap site st j <> None) /\
  (forall j, s_fresh site st <= j -> s_heap site st j = None).

Lemma enter_inv st fs f s t : inv st fs f ->
  exists st', span_entry site st true s t = Some st' /\ inv st' (fs ++ [f]) (s_fresh site st, s, t, []).
Proof.
  intros (I1 & I2 & I3 & I4 & I5 & I6).
  destruct f as [[[x s0] t0] subs]. unfold top_of in *.
  rewrite map_app, rev_app_distr in I1. cbn [map rev app fid] in I1.
  set (new := s_fresh site st) in *. unfold close in *. rewrite app_nil_r in *.
  destruct (nodup_plug fs _ I4) as [ND DJ].
  assert (HS : exists par p, shape (s_heap site st) par p None (IT x s0 t0 0 subs)).
  { exact (plug_sub _ _ fs None None I3). }
  destruct HS as (par0 & p0 & HS). apply shape_eq in HS. destruct HS as [HX HC].
  assert (FN : s_heap site st new = None) by (apply I6; lia).
  assert (NI : ~ In new (ids (plug fs (IT x s0 t0 0 subs)))) by (rewrite I5; congruence).
  destruct (span_entry_ok st x (rev (map fid fs)) s t _ subs I1 HX FN eq_refl eq_refl) as (h' & E & EN).
  { intros k Hk. apply last_in in Hk. destruct Hk as [Hk|(u & Hu & <-)]; [discriminate|]. split.
    - intros K. cbn [ids] in ND. apply NoDup_cons_iff in ND. apply (proj1 ND). apply in_flat_map. exists u. split; [exact Hu|]. rewrite <- K. apply iid_ids.
    - now apply (chain_cell _ x subs None). }
  { congruence. }
  eexists. split; [exact E|]. split; [|split; [|split; [|split; [|split]]]]; cbn [s_stack s_root s_heap s_fresh].
  - rewrite !map_app, !rev_app_distr. reflexivity.
  - rewrite I2. f_equal. unfold top_of. rewrite plug_app. apply iid_plug. reflexivity.
  - unfold top_of. rewrite plug_app.
    apply (plug_replace (s_heap site st) h' (IT x s0 t0 0 subs)); [reflexivity| |  |exact I3].
    + intros par p S. unfold close. cbn [app].
      apply (enter_shape (s_heap site st)); auto. intros K. apply NI. apply ids_plug. now right.
    + intros j Hj. apply EN.
      * intros ->. apply NI. apply ids_plug. now left.
      * intros ->. apply (DJ x); [now left|exact Hj].
      * intros K. symmetry in K. apply last_in in K. destruct K as [K|(u & Hu & <-)]; [discriminate|].
        apply (DJ (iid u)); [|exact Hj]. right. apply in_flat_map. exists u. split; [exact Hu|apply iid_ids].
  - unfold top_of. rewrite plug_app. unfold close. cbn [app].
    assert (P : forall fs', NoDup (ids (plug fs' (IT x s0 t0 0 subs))) -> ~ In new (ids (plug fs' (IT x s0 t0 0 subs))) ->
      NoDup (ids (plug fs' (IT x s0 t0 0 (subs ++ [IT new s t 0 []]))))).
    { clear. assert (Q : forall (a : list nat) b, NoDup a -> ~ In b a -> NoDup (a ++ [b])).
      { induction a as [|y a IH]; intros b N K; cbn [app]; [constructor; [auto|constructor]|]. inversion N; subst. constructor.
        - rewrite in_app_iff. intros [?|[->|[]]]; [contradiction|]. apply K. now left.
        - apply IH; auto. intros ?. apply K. now right. }
      induction fs' as [|[[[i si] ti] l] fs' IH]; intros N K; cbn [plug] in *.
      - cbn [ids] in *. rewrite flat_map_app. cbn [flat_map ids]. cbn [app].
        change (x :: flat_map ids subs ++ [new]) with ((x :: flat_map ids subs) ++ [new]). now apply Q.
      - unfold close in *. cbn [ids] in *. rewrite flat_map_app in *. cbn [flat_map] in *. rewrite app_nil_r in *.
        assert (NP : NoDup (ids (plug fs' (IT x s0 t0 0 subs)))).
        { inversion N; subst. clear - H2. induction (flat_map ids l); auto. apply IHl0. now inversion H2. }
        assert (KP : ~ In new (ids (plug fs' (IT x s0 t0 0 subs)))).
        { intros H. apply K. right. apply in_or_app. now right. }
        specialize (IH NP KP).
        assert (MEM : forall j, In j (ids (plug fs' (IT x s0 t0 0 (subs ++ [IT new s t 0 []])))) ->
          In j (ids (plug fs' (IT x s0 t0 0 subs))) \/ j = new).
        { intros j Hj. apply ids_plug in Hj. rewrite ids_plug. cbn [ids] in *. rewrite flat_map_app in Hj. cbn [flat_map ids app In] in Hj.
          rewrite in_app_iff in Hj. cbn [In] in *. intuition. }
        clear NP KP. inversion N; subst. constructor.
        + rewrite in_app_iff. intros [H|H].
          * apply H1. apply in_or_app. now left.
          * apply MEM in H. destruct H as [H| ->]; [apply H1; apply in_or_app; now right|]. apply K. now left.
        + assert (K2 : ~ In new (flat_map ids l)) by (intros H; apply K; right; apply in_or_app; now left).
          clear - H2 IH MEM K2. induction (flat_map ids l) as [|y r IHr]; [exact IH|]. cbn [app] in *. inversion H2; subst. constructor.
          * rewrite in_app_iff. intros [H|H]; [apply H1; apply in_or_app; now left|].
            apply MEM in H. destruct H as [H| ->]; [apply H1; apply in_or_app; now right|]. apply K2. now left.
          * apply IHr; auto. intros H. apply K2. now right. }
    now apply P.
  - intros j. unfold top_of. rewrite plug_app, ids_plug. unfold close. cbn [app ids]. rewrite flat_map_app. cbn [flat_map ids app].
    specialize (I5 j). rewrite ids_plug in I5. cbn [ids In] in *. rewrite in_app_iff. cbn [In].
    destruct EN as (E1 & E2 & E3 & E4).
    destruct (Nat.eq_dec j new) as [->|Jn].
    { unfold new. rewrite E4. split; [discriminate|]. intros _. right. right. right. now left. }
    assert (SAME : s_heap site st j <> None <-> h' j <> None).
    { destruct (Nat.eq_dec j x) as [->|Jx]; [rewrite (E2 _ HX), HX; split; discriminate|].
      destruct (last_id None subs) as [k|] eqn:EL.
      - destruct (Nat.eq_dec j k) as [->|Jk].
        + apply last_in in EL as EL2. destruct EL2 as [?|(u & Hu & <-)]; [discriminate|].
          destruct (chain_cell _ x subs None u HC Hu) as [nk Hnk]. rewrite (E3 _ _ eq_refl Hnk), Hnk. split; discriminate.
        + rewrite E1; auto; [tauto|congruence].
      - rewrite E1; auto; [tauto|discriminate]. }
    rewrite <- SAME, <- I5. split.
    + intros [?|[?|[?|[?|[]]]]]; auto. congruence.
    + tauto.
  - intros j Hj. destruct EN as (E1 & _). rewrite E1; [apply I6; lia|lia| |].
    + intros ->. rewrite I6 in HX by lia. discriminate.
    + intros K. symmetry in K. apply last_in in K. destruct K as [?|(u & Hu & <-)]; [discriminate|].
      destruct (chain_cell _ x subs None u HC Hu) as [nk Hnk]. rewrite I6 in Hnk by lia. discriminate.
Qed.

(** ** Leaving *)

Definition add_subs (f : iframe) (us : list itree) : iframe :=
  match f with (i, s, t0, l) => (i, s, t0, l ++ us) end.

Lemma add_subs_app f a b : add_subs (add_subs f a) b = add_subs f (a ++ b).
Proof. destruct f as [[[? ?] ?] ?]. cbn. now rewrite app_assoc. Qed.
Lemma add_subs_nil f : add_subs f [] = f.
Proof. destruct f as [[[? ?] ?] ?]. cbn. now rewrite app_nil_r. Qed.
Lemma fid_add f a : fid (add_subs f a) = fid f.
Proof. destruct f as [[[? ?] ?] ?]. reflexivity. Qed.

Lemma top_add fs f u : top_of fs (add_subs f [u]) = plug (fs ++ [f]) u.
Proof. rewrite plug_app. unfold top_of. destruct f as [[[? ?] ?] ?]. cbn [add_subs close]. now rewrite app_nil_r. Qed.

Lemma ids_same fs u u' : ids u = ids u' -> ids (plug fs u) = ids (plug fs u').
Proof.
  intros E. induction fs as [|[[[i s] t0] l] fs IH]; cbn [plug]; auto.
  unfold close. cbn [ids]. rewrite !flat_map_app. cbn [flat_map]. now rewrite IH.
Qed.

Lemma ids_close f a b x : ids (close f a x) = ids (close f b x).
Proof. destruct f as [[[? ?] ?] ?]. reflexivity. Qed.

Lemma exit_shape h par p f t n : h (fid f) = Some n -> NoDup (ids (close f 0 [])) ->
  shape h par p None (close f 0 []) ->
  shape (put site h (fid f) (Some (set_end site n t))) par p None (close f t []).
Proof.
  destruct f as [[[x s] t0] l]. unfold close. cbn [fid]. rewrite app_nil_r. intros Hn ND S.
  apply shape_eq in S. destruct S as [S C]. rewrite S in Hn. injection Hn as <-. apply shape_eq. split.
  - rewrite put_same. reflexivity.
  - apply (chain_frame h); [|exact C]. intros j Hj. apply put_other. intros ->.
    cbn [ids] in ND. inversion ND; subst. contradiction.
Qed.

Definition closed (st : state) (t : itree) : Prop :=
  s_stack site st = [] /\ s_root site st = Some (iid t) /\
  shape (s_heap site st) None None None t /\ NoDup (ids t) /\
  (forall j, In j (ids t) <-> s_heap site st j <> None) /\
  (forall j, s_fresh site st <= j -> s_heap site st j = None).

Lemma top_cell st fs f : inv st fs f -> exists n, s_heap site st (fid f) = Some n.
Proof.
  intros (_ & _ & S & _). destruct (plug_sub _ _ fs None None S) as (par & p & S').
  rewrite <- (iid_close f 0 []). now apply root_cell in S'.
Qed.

Lemma exit_all st fs f t : inv st fs f ->
  exists st', span_exit site st true t = Some st' /\
    s_stack site st' = rev (map fid fs) /\ s_root site st' = Some (iid (plug fs (close f t []))) /\
    shape (s_heap site st') None None None (plug fs (close f t [])) /\
    NoDup (ids (plug fs (close f t []))) /\
    (forall j, In j (ids (plug fs (close f t []))) <-> s_heap site st' j <> None) /\
    (forall j, s_fresh site st' <= j -> s_heap site st' j = None).
Proof.
  intros I. pose proof I as (I1 & I2 & I3 & I4 & I5 & I6). destruct (top_cell st fs f I) as [n Hn].
  unfold span_exit. cbn [negb]. rewrite I1, map_app, rev_app_distr. cbn [map rev app].
  rewrite Hn. cbn [obind]. eexists. split; [reflexivity|]. cbn [s_stack s_root s_heap s_fresh].
  unfold top_of in *. rewrite (ids_same fs (close f t []) (close f 0 [])) by apply ids_close.
  split; [reflexivity|]. split; [|split; [|split; [|split]]].
  - rewrite I2. f_equal. apply iid_plug. now rewrite !iid_close.
  - destruct (nodup_plug fs _ I4) as [ND DJ].
    apply (plug_replace (s_heap site st) _ (close f 0 [])); [now rewrite !iid_close| | |exact I3].
    + intros par p S. now apply exit_shape.
    + intros j Hj. apply put_other. intros ->. apply (DJ (fid f)); [|exact Hj].
      rewrite <- (iid_close f 0 []). apply iid_ids.
  - exact I4.
  - intros j. rewrite I5. destruct (Nat.eq_dec j (fid f)) as [->|ne].
    + rewrite put_same, Hn. split; discriminate.
    + now rewrite put_other.
  - intros j Hj. destruct (Nat.eq_dec j (fid f)) as [->|ne].
    + rewrite I6 in Hn by auto. discriminate.
    + rewrite put_other by auto. now apply I6.
Qed.

Lemma exit_inv st fs f1 f2 t : inv st (fs ++ [f1]) f2 ->
  exists st', span_exit site st true t = Some st' /\ inv st' fs (add_subs f1 [close f2 t []]).
Proof.
  intros I. destruct (exit_all st (fs ++ [f1]) f2 t I) as (st' & E & S1 & S2 & S3 & S4 & S5 & S6).
  exists st'. split; [exact E|]. unfold inv. rewrite top_add.
  split; [|split; [exact S2|split; [exact S3|split; [exact S4|split; [exact S5|exact S6]]]]].
  rewrite S1, !map_app. cbn [map]. now rewrite fid_add.
Qed.

Lemma exit_last st f t : inv st [] f ->
  exists st', span_exit site st true t = Some st' /\ closed st' (close f t []).
Proof.
  intros I. destruct (exit_all st [] f t I) as (st' & E & S). exists st'. split; [exact E|exact S].
Qed.

Lemma first_inv s t : exists st, span_entry site (init site) true s t = Some st /\ inv st [] (0, s, t, []).
Proof.
  eexists. split; [reflexivity|]. split; [reflexivity|]. split; [reflexivity|].
  unfold top_of. cbn [plug close app s_heap s_fresh]. split; [|split; [|split]].
  - apply shape_eq. split; [|exact I]. rewrite put_same. reflexivity.
  - cbn. constructor; [auto|constructor].
  - intros j. cbn [ids flat_map In]. destruct (Nat.eq_dec j 0) as [->|ne].
    + rewrite put_same. split; [discriminate|auto].
    + rewrite !put_other by auto. cbn. split; [intros [?|[]]; congruence|congruence].
  - intros j Hj. assert (J : 1 <= j) by exact Hj. destruct j; [lia|reflexivity].
Qed.

(** ** Running *)

Lemma run_app st a b : run site st (a ++ b) = obind (run site st a) (fun st' => run site st' b).
Proof.
  revert st. induction a as [|e a IH]; intros st; [reflexivity|]. cbn [app run].
  destruct (step site st e); cbn [obind]; [apply IH|reflexivity].
Qed.

Lemma run_own es : forall st, run site st es = run site st (own site es).
Proof.
  induction es as [|e es IH]; intros st; [reflexivity|]. cbn [own filter].
  destruct e as [[|] s t|[|] t]; cbn [own_event]; cbn [run].
  - destruct (step site st _); cbn [obind]; [apply IH|reflexivity].
  - cbn [step]. unfold span_entry. cbn [negb obind]. apply IH.
  - destruct (step site st _); cbn [obind]; [apply IH|reflexivity].
  - cbn [step]. unfold span_exit. cbn [negb obind]. apply IH.
Qed.

Section CallInd.
Variable P : call -> Prop.
Hypothesis H : forall s t0 t1 subs, Forall P subs -> P (Call site s t0 t1 subs).
Fixpoint call_ind' (c : call) : P c :=
  match c with
  | Call _ s t0 t1 subs => H s t0 t1 subs
      ((fix go (l : list call) : Forall P l :=
          match l with [] => Forall_nil _ | u :: l' => Forall_cons _ (call_ind' u) (go l') end) subs)
  end.
End CallInd.

Definition runs_call (c : call) : Prop := forall st fs f, inv st fs f ->
  exists st' u, run site st (events site c) = Some st' /\ inv st' fs (add_subs f [u]) /\ erase u = c.

Lemma runs_calls l : Forall runs_call l -> forall st fs f, inv st fs f ->
  exists st' us, run site st (flat_map (events site) l) = Some st' /\ inv st' fs (add_subs f us) /\ map erase us = l.
Proof.
  induction 1 as [|c l Hc Hl IH]; intros st fs f I.
  - exists st, []. rewrite add_subs_nil. auto.
  - destruct (Hc st fs f I) as (st1 & u & E1 & I1 & U1).
    destruct (IH st1 fs _ I1) as (st2 & us & E2 & I2 & U2).
    exists st2, (u :: us). cbn [flat_map]. rewrite run_app, E1. cbn [obind]. split; [exact E2|]. split.
    + now rewrite add_subs_app in I2.
    + cbn [map]. congruence.
Qed.

Lemma erase_close i s t0 t us : erase (close (add_subs (i, s, t0, []) us) t []) = Call site s t0 t (map erase us).
Proof. cbn. now rewrite app_nil_r. Qed.

Lemma run_call : forall c, runs_call c.
Proof.
  induction c as [s t0 t1 subs IH] using call_ind'. intros st fs f I.
  cbn [events run step]. destruct (enter_inv st fs f s t0 I) as (st1 & E1 & I1). rewrite E1. cbn [obind].
  destruct (runs_calls subs IH st1 _ _ I1) as (st2 & us & E2 & I2 & U). rewrite run_app, E2. cbn [obind run step].
  destruct (exit_inv st2 fs f _ t1 I2) as (st3 & E3 & I3). rewrite E3. cbn [obind].
  eexists. eexists. split; [reflexivity|]. split; [exact I3|]. rewrite erase_close, U. reflexivity.
Qed.

Lemma run_calls l st fs f : inv st fs f ->
  exists st' us, run site st (flat_map (events site) l) = Some st' /\ inv st' fs (add_subs f us) /\ map erase us = l.
Proof. apply runs_calls. apply Forall_forall. intros c _. apply run_call. Qed.

Lemma run_closed c : exists st u, run site (init site) (events site c) = Some st /\ closed st u /\ erase u = c.
Proof.
  destruct c as [s t0 t1 subs]. cbn [events run step]. destruct (first_inv s t0) as (st1 & E1 & I1). rewrite E1. cbn [obind].
  destruct (run_calls subs st1 _ _ I1) as (st2 & us & E2 & I2 & U). rewrite run_app, E2. cbn [obind run step].
  destruct (exit_last st2 _ t1 I2) as (st3 & E3 & I3). rewrite E3. cbn [obind].
  eexists. eexists. split; [reflexivity|]. split; [exact I3|]. rewrite erase_close, U. reflexivity.
Qed.

(** Calls that go on. *)
Definition erase_f (f : iframe) : open_call site := match f with (_, s, t0, l) => (s, t0, map erase l) end.

Lemma run_open : forall gs st fs f, inv st fs f ->
  exists st' gs' f', run site st (open_events site gs) = Some st' /\ inv st' gs' f' /\
    map erase_f (gs' ++ [f']) = map erase_f (fs ++ [f]) ++ gs.
Proof.
  induction gs as [|[[s t0] subs] gs IH]; intros st fs f I.
  - exists st, fs, f. rewrite app_nil_r. auto.
  - cbn [open_events flat_map app run step]. destruct (enter_inv st fs f s t0 I) as (st1 & E1 & I1). rewrite E1. cbn [obind].
    destruct (run_calls subs st1 _ _ I1) as (st2 & us & E2 & I2 & U). rewrite run_app, E2. cbn [obind].
    destruct (IH st2 _ _ I2) as (st3 & gs' & f' & E3 & I3 & M).
    exists st3, gs', f'. split; [exact E3|]. split; [exact I3|]. rewrite M.
    rewrite (map_app erase_f (fs ++ [f])). cbn [map add_subs erase_f app]. rewrite U, <- app_assoc. reflexivity.
Qed.

Lemma run_open_first g gs : exists st fs f, run site (init site) (open_events site (g :: gs)) = Some st /\
  inv st fs f /\ map erase_f (fs ++ [f]) = g :: gs.
Proof.
  destruct g as [[s t0] subs]. cbn [open_events flat_map app run step].
  destruct (first_inv s t0) as (st1 & E1 & I1). rewrite E1. cbn [obind].
  destruct (run_calls subs st1 _ _ I1) as (st2 & us & E2 & I2 & U). rewrite run_app, E2. cbn [obind].
  destruct (run_open gs st2 _ _ I2) as (st3 & gs' & f' & E3 & I3 & M).
  exists st3, gs', f'. split; [exact E3|]. split; [exact I3|]. rewrite M. cbn [map app add_subs erase_f]. now rewrite U.
Qed.

Lemma erase_top fs f : match map erase_f (fs ++ [f]) with [] => True | g :: gs => erase (top_of fs f) = open_tree site g gs end.
Proof.
  unfold top_of. induction fs as [|[[[i s] t0] l] fs IH]; cbn [app map plug].
  - destruct f as [[[i s] t0] l]. cbn [erase_f close erase open_tree]. now rewrite !app_nil_r.
  - cbn [erase_f close erase open_tree]. rewrite map_app. cbn [map].
    destruct (map erase_f (fs ++ [f])) as [|g gs] eqn:E.
    + apply map_eq_nil in E. now destruct fs.
    + now rewrite IH.
Qed.

(** ** Reading the tree *)

Notation seen := (line site).

Definition dumps (t : itree) : Prop := forall h par prev next level fuel,
  shape h par prev next t -> 2 * size site (erase t) <= fuel ->
  exists d, dump site fuel h (iid t) level = Some d /\ map seen d = indented site level (erase t).

Lemma dump_S fuel h i level : dump site (S fuel) h i level =
  obind (h i) (fun n => obind (dump_chain site fuel h (n_head site n) (S level)) (fun r => Some ((level, n) :: r))).
Proof. reflexivity. Qed.
Lemma dump_chain_S fuel h o level : dump_chain site (S fuel) h o level =
  match o with
  | None => Some []
  | Some i => obind (dump site fuel h i level) (fun a => obind (h i) (fun n =>
      obind (dump_chain site fuel h (n_next site n) level) (fun b => Some (a ++ b))))
  end.
Proof. reflexivity. Qed.
Lemma free_S fuel h i : free site (S fuel) h i =
  obind (free_subs site fuel h i) (fun h => obind (h i) (fun _ => Some (put site h i None))).
Proof. reflexivity. Qed.
Lemma free_subs_S fuel h i : free_subs site (S fuel) h i =
  obind (h i) (fun n => match n_head site n with
    | None => Some h
    | Some j => obind (chain_del site h i j) (fun h => obind (free site fuel h j) (fun h => free_subs site fuel h i))
    end).
Proof. reflexivity. Qed.

Lemma dump_chain_ok : forall l, Forall dumps l -> forall h i prev level fuel,
  chain h i prev l -> 2 * list_sum (map (fun t => size site (erase t)) l) + 1 <= fuel ->
  exists d, dump_chain site fuel h (hd_id l) level = Some d /\ map seen d = flat_map (indented site level) (map erase l).
Proof.
  induction 1 as [|t l Ht Hl IH]; intros h i prev level fuel C F.
  - destruct fuel as [|fuel]; [lia|]. exists []. auto.
  - cbn [map list_sum fold_right] in F. fold (list_sum (map (fun t => size site (erase t)) l)) in F.
    destruct fuel as [|fuel]; [lia|]. destruct C as [C1 C2].
    assert (SZ : 1 <= size site (erase t)) by (destruct t; cbn; lia).
    destruct (Ht h _ _ _ level fuel C1) as (d1 & E1 & M1); [lia|].
    destruct (IH h i _ level fuel C2) as (d2 & E2 & M2); [lia|].
    exists (d1 ++ d2). rewrite dump_chain_S. cbn [hd_id]. rewrite E1. cbn [obind].
    assert (NX : exists n, h (iid t) = Some n /\ n_next site n = hd_id l).
    { destruct t as [j s t0 t1 subs]. apply shape_eq in C1. destruct C1 as [C1 _]. eexists. split; [exact C1|reflexivity]. }
    destruct NX as (n & Hn & Nx). rewrite Hn. cbn [obind]. rewrite Nx, E2. cbn [obind].
    split; [reflexivity|]. rewrite map_app, M1, M2. reflexivity.
Qed.

Lemma dump_ok : forall t, dumps t.
Proof.
  induction t as [i s t0 t1 subs IH] using itree_ind'. intros h par prev next level fuel S F.
  apply shape_eq in S. destruct S as [S C]. cbn [erase size] in F. rewrite map_map in F.
  destruct fuel as [|fuel]; [lia|].
  destruct (dump_chain_ok subs IH h i None (Datatypes.S level) fuel C) as (d & E & M); [lia|].
  eexists. cbn [iid]. rewrite dump_S, S. cbn [obind n_head]. rewrite E. cbn [obind]. split; [reflexivity|].
  cbn [map erase indented]. rewrite M. reflexivity.
Qed.

(** ** Giving it up *)

Lemma last_chain_ne : forall l d u, l <> [] -> last_id d (u :: l) = last_id None l.
Proof.
  intros l d u Hl. destruct l as [|v l]; [congruence|]. reflexivity.
Qed.

Definition frees (t : itree) : Prop := forall h par prev next fuel,
  shape h par prev next t -> NoDup (ids t) -> 2 * size site (erase t) <= fuel ->
  exists h', free site fuel h (iid t) = Some h' /\
    (forall j, In j (ids t) -> h' j = None) /\ (forall j, ~ In j (ids t) -> h' j = h j).

Lemma set_head_shape h x j n : forall t par prev next, iid t = j -> h j = Some n -> ~ In x (ids t) -> NoDup (ids t) ->
  shape h par prev next t -> forall nx,
  shape (put site (put site h x nx) j (Some (set_prev site n None))) par None next t.
Proof.
  intros [i s t0 t1 subs] par prev next <- Hn NX ND S nx. cbn [iid] in *.
  apply shape_eq in S. destruct S as [S C]. rewrite S in Hn. injection Hn as <-. apply shape_eq. split.
  - rewrite put_same. reflexivity.
  - cbn [ids] in *. inversion ND; subst. apply (chain_frame h); [|exact C]. intros j Hj.
    rewrite put_other by (intros ->; contradiction). apply put_other. intros ->. apply NX. now right.
Qed.

Lemma free_subs_ok : forall l, Forall frees l -> forall h x n fuel,
  h x = Some n -> n_head site n = hd_id l -> n_tail site n = last_id None l -> chain h x None l ->
  NoDup (x :: flat_map ids l) -> 2 * list_sum (map (fun t => size site (erase t)) l) + 1 <= fuel ->
  exists h', free_subs site fuel h x = Some h' /\
    (exists n', h' x = Some n') /\
    (forall j, In j (flat_map ids l) -> h' j = None) /\
    (forall j, j <> x -> ~ In j (flat_map ids l) -> h' j = h j).
Proof.
  induction 1 as [|t l Ht Hl IH]; intros h x n fuel Hx Hh Htl C ND F.
  - destruct fuel as [|fuel]; [lia|]. rewrite free_subs_S, Hx. cbn [obind]. rewrite Hh. cbn [hd_id].
    exists h. split; [reflexivity|]. split; [eauto|]. split; [intros j []|auto].
  - cbn [map list_sum fold_right] in F. fold (list_sum (map (fun t => size site (erase t)) l)) in F.
    assert (SZ : 1 <= size site (erase t)) by (destruct t; cbn; lia).
    destruct fuel as [|fuel]; [lia|]. rewrite free_subs_S, Hx. cbn [obind]. rewrite Hh. cbn [hd_id].
    destruct C as [C1 C2]. set (u := iid t) in *.
    cbn [flat_map] in ND. apply NoDup_cons_iff in ND. destruct ND as [NX ND].
    assert (NDt : NoDup (ids t)).
    { clear - ND. induction (ids t); [constructor|]. cbn [app] in ND. inversion ND; subst. constructor; auto.
      intros K. apply H1. apply in_or_app. now left. }
    assert (NDl : NoDup (flat_map ids l)).
    { clear - ND. induction (ids t); auto. apply IHl0. now inversion ND. }
    assert (DJ : forall j, In j (ids t) -> ~ In j (flat_map ids l)).
    { clear - ND. induction (ids t) as [|y r IH]; intros j Hj K; [destruct Hj|]. cbn [app] in ND. inversion ND; subst.
      destruct Hj as [->|Hj]; [apply H1; apply in_or_app; now right|]. now apply (IH H2 j). }
    assert (NXt : ~ In x (ids t)) by (intros K; apply NX; apply in_or_app; now left).
    assert (NXl : ~ In x (flat_map ids l)) by (intros K; apply NX; apply in_or_app; now right).
    assert (UX : u <> x) by (intros K; apply NXt; rewrite <- K; apply iid_ids).
    destruct (root_cell _ _ _ _ _ C1) as [nu Hu]. fold u in Hu.
    (* the span taken out *)
    assert (D : exists h1 n1, chain_del site h x u = Some h1 /\
       h1 x = Some n1 /\ n_head site n1 = hd_id l /\ n_tail site n1 = last_id None l /\
       shape h1 (Some x) None None t /\ chain h1 x None l /\
       (forall j, j <> x -> ~ In j (ids t) -> ~ In j (flat_map ids l) -> h1 j = h j)).
    { assert (NXT : n_next site nu = hd_id l).
      { destruct t as [j s t0 t1 subs]. apply shape_eq in C1. destruct C1 as [C1 _]. unfold u in Hu. cbn [iid] in Hu.
        rewrite C1 in Hu. injection Hu as <-. reflexivity. }
      assert (CLEAN : forall g : heap, (forall j, In j (ids t) -> g j = h j) ->
        shape (put site g u (Some (set_next site (set_prev site nu None) None))) (Some x) None None t).
      { intros g Hg. destruct t as [j s t0 t1 subs]. unfold u in *. cbn [iid ids] in *. apply shape_eq in C1. destruct C1 as [C1 C1'].
        rewrite C1 in Hu. injection Hu as <-. apply shape_eq. split; [rewrite put_same; reflexivity|].
        apply (chain_frame h); [|exact C1']. intros k Hk. inversion NDt; subst. rewrite put_other by (intros ->; contradiction).
        apply Hg. now right. }
      unfold chain_del. rewrite Hx. cbn [obind]. rewrite Hu. cbn [obind]. rewrite Hh, Htl. cbn [hd_id]. fold u. rewrite Nat.eqb_refl.
      destruct l as [|v l].
      - cbn [last_id]. fold u. rewrite Nat.eqb_refl. cbn [obind]. rewrite put_other by auto. rewrite Hu. cbn [obind].
        eexists. eexists. split; [reflexivity|]. rewrite put_other by auto. rewrite put_same.
        split; [reflexivity|]. split; [reflexivity|]. split; [reflexivity|]. split; [|split; [exact I|]].
        + apply CLEAN. intros j Hj. apply put_other. intros ->. contradiction.
        + intros j Jx Jt _. rewrite put_other by (intros ->; apply Jt; apply iid_ids). now apply put_other.
      - assert (VL : In (iid v) (flat_map ids (v :: l))) by (cbn [flat_map]; apply in_or_app; left; apply iid_ids).
        assert (LAST : exists k, last_id None (t :: v :: l) = Some k /\ k <> u /\ last_id None (v :: l) = Some k).
        { cbn [last_id]. destruct (last_id (Some (iid v)) l) as [k|] eqn:EL.
          - exists k. split; [reflexivity|]. split; [|reflexivity]. intros ->. apply (DJ u); [apply iid_ids|].
            apply last_in in EL. destruct EL as [EL|(w & Hw & EL)].
            + injection EL as <-. exact VL.
            + rewrite <- EL. cbn [flat_map]. apply in_or_app. right. apply in_flat_map. exists w. split; [exact Hw|apply iid_ids].
          - apply last_none in EL. destruct EL. discriminate. }
        destruct LAST as (k & K1 & K2 & K3). rewrite K1. destruct (Nat.eqb_spec k u); [contradiction|].
        rewrite NXT. cbn [hd_id obind].
        destruct C2 as [C2 C3]. destruct (root_cell _ _ _ _ _ C2) as [nv Hv]. rewrite Hv. cbn [obind].
        assert (VX : iid v <> x) by (intros K; apply NXl; rewrite <- K; exact VL).
        assert (VU : iid v <> u) by (intros K; apply (DJ u); [apply iid_ids|rewrite <- K; exact VL]).
        rewrite (put_other _ (iid v) _ u) by auto. rewrite (put_other _ x _ u) by auto. rewrite Hu. cbn [obind].
        eexists. eexists. split; [reflexivity|]. rewrite (put_other _ u _ x) by auto. rewrite (put_other _ (iid v) _ x) by auto. rewrite put_same.
        split; [reflexivity|]. split; [reflexivity|]. split; [symmetry; rewrite K3; reflexivity|]. split; [|split].
        + apply CLEAN. intros j Hj. rewrite put_other by (intros ->; now apply (DJ (iid v))). apply put_other. intros ->. contradiction.
        + assert (OUT : forall j, In j (flat_map ids (v :: l)) -> j <> u).
          { intros j Hj ->. apply (DJ u); [apply iid_ids|exact Hj]. }
          cbn [flat_map] in NDl, OUT, NXl. split.
          * apply (shape_frame (put site (put site h x (Some (set_subs site n (Some (iid v)) (Some k)))) (iid v) (Some (set_prev site nv None)))).
            { intros j Hj. apply put_other. apply OUT. apply in_or_app. now left. }
            apply (set_head_shape h x (iid v) nv v _ (Some u)); auto.
            -- intros K. apply NXl. apply in_or_app. now left.
            -- clear - NDl. induction (ids v); [constructor|]. cbn [app] in NDl. inversion NDl; subst. constructor; auto.
               intros K. apply H1. apply in_or_app. now left.
          * apply (chain_frame h); [|exact C3]. intros j Hj.
            rewrite put_other by (apply OUT; apply in_or_app; now right).
            rewrite put_other.
            2:{ intros ->. clear - NDl Hj. pose proof (iid_ids v) as IV. induction (ids v) as [|y r IHr]; [destruct IV|].
                cbn [app] in NDl. inversion NDl; subst. destruct IV as [->|IV]; [apply H1; apply in_or_app; now right|now apply IHr]. }
            apply put_other. intros ->. apply NXl. apply in_or_app. now right.
        + intros j Jx Jt Jl. rewrite put_other by (intros ->; apply Jt; apply iid_ids).
          rewrite put_other by (intros ->; apply Jl; exact VL). now apply put_other. }
    destruct D as (h1 & n1 & E1 & X1 & X2 & X3 & S1 & CH1 & O1). rewrite E1. cbn [obind].
    destruct (Ht h1 _ _ _ fuel S1 NDt) as (h2 & E2 & G1 & G2); [lia|]. fold u in E2. rewrite E2. cbn [obind].
    destruct (IH h2 x n1 fuel) as (h3 & E3 & LX & Q1 & Q2).
    + rewrite G2 by exact NXt. exact X1.
    + exact X2.
    + exact X3.
    + apply (chain_frame h1); [|exact CH1]. intros j Hj. apply G2. intros K. now apply (DJ j).
    + constructor; auto.
    + lia.
    + exists h3. split; [exact E3|]. split; [exact LX|]. cbn [flat_map]. split.
      * intros j Hj. apply in_app_or in Hj. destruct (in_dec Nat.eq_dec j (flat_map ids l)) as [Hl'|Nl]; [now apply Q1|].
        destruct Hj as [Hj|Hj]; [|contradiction]. rewrite Q2; [now apply G1| |exact Nl]. intros ->. contradiction.
      * intros j Jx Jn. rewrite in_app_iff in Jn. rewrite Q2 by tauto. rewrite G2 by tauto. apply O1; tauto.
Qed.

Lemma free_ok : forall t, frees t.
Proof.
  induction t as [i s t0 t1 subs IH] using itree_ind'. intros h par prev next fuel S ND F.
  apply shape_eq in S. destruct S as [S C]. cbn [erase size] in F. rewrite map_map in F.
  destruct fuel as [|fuel]; [lia|]. cbn [ids iid] in *.
  destruct (free_subs_ok subs IH h i _ fuel S eq_refl eq_refl C ND) as (h1 & E1 & (n1 & L1) & Q1 & Q2); [lia|].
  rewrite free_S, E1. cbn [obind]. rewrite L1. cbn [obind]. eexists. split; [reflexivity|]. split.
  - intros j Hj. destruct (Nat.eq_dec j i) as [->|ne]; [now rewrite put_same|]. rewrite put_other by auto.
    apply Q1. destruct Hj as [?|?]; [congruence|auto].
  - intros j Hj. rewrite put_other by (intros ->; apply Hj; now left). apply Q2.
    + intros ->. apply Hj. now left.
    + intros K. apply Hj. now right.
Qed.

Lemma release_ok st t fuel : closed st t -> 2 * size site (erase t) <= fuel ->
  exists st', span_release site fuel st = Some st' /\ s_root site st' = None /\ forall j, s_heap site st' j = None.
Proof.
  intros (C1 & C2 & C3 & C4 & C5 & C6) F. unfold span_release. rewrite C2.
  destruct (free_ok t _ _ _ _ fuel C3 C4 F) as (h' & E & G1 & G2). rewrite E. cbn [obind].
  eexists. split; [reflexivity|]. split; [reflexivity|]. cbn [s_heap]. intros j.
  destruct (in_dec Nat.eq_dec j (ids t)) as [Hj|Hj]; [now apply G1|]. rewrite G2 by exact Hj.
  destruct (s_heap site st j) eqn:E'; [|reflexivity]. exfalso. apply Hj. apply C5. congruence.
Qed.

(** ** Reading the list back *)

Lemma indented_levels : forall c level x, In x (indented site level c) -> level <= fst x.
Proof.
  induction c as [s t0 t1 subs IH] using call_ind'. intros level x H. cbn [indented] in H. destruct H as [<-|H]; [cbn; lia|].
  apply in_flat_map in H. destruct H as (c & Hc & Hx). rewrite Forall_forall in IH. specialize (IH c Hc _ _ Hx). lia.
Qed.

Definition below (n : nat) (r : list (nat * (site * N * N))) : Prop :=
  match r with [] => True | x :: _ => fst x < n end.

Lemma indented_inj : forall m l l' n r r', list_sum (map (size site) l) <= m -> below n r -> below n r' ->
  flat_map (indented site n) l ++ r = flat_map (indented site n) l' ++ r' -> l = l' /\ r = r'.
Proof.
  induction m as [|m IH]; intros l l' n r r' SZ B B' E.
  - destruct l as [|[s t0 t1 subs] l]; [|cbn in SZ; lia]. destruct l' as [|[s' t0' t1' subs'] l']; [auto|].
    cbn in E. rewrite E in B. cbn in B. lia.
  - destruct l as [|[s t0 t1 subs] l], l' as [|[s' t0' t1' subs'] l'].
    + auto.
    + cbn in E. rewrite E in B. cbn in B. lia.
    + cbn in E. rewrite <- E in B'. cbn in B'. lia.
    + cbn [flat_map indented app] in E. injection E as E1 E2 E3 E4. subst.
      cbn [map size list_sum fold_right] in SZ. fold (list_sum (map (size site) l)) in SZ. fold (list_sum (map (size site) subs)) in SZ.
      rewrite <- !app_assoc in E4.
      assert (BL : forall (k : list call) z, below n z -> below (S n) (flat_map (indented site n) k ++ z)).
      { intros [|[? ? ? ?] k] z Hz; cbn; [|lia]. destruct z; cbn in *; [auto|lia]. }
      apply (IH subs subs' (S n)) in E4; [|lia|now apply BL|now apply BL].
      destruct E4 as [-> E4]. apply (IH l l' n) in E4; [|lia|auto|auto]. destruct E4 as [-> ->]. auto.
Qed.

Lemma indented_unique c c' : indented site 0 c = indented site 0 c' -> c = c'.
Proof.
  intros E. destruct (indented_inj (size site c + 0) [c] [c'] 0 [] []) as [K _]; cbn; auto.
  - rewrite !app_nil_r. exact E.
  - congruence.
Qed.

(** ** Every history *)

Lemma goes_on_open : forall es d fs, length fs = d -> goes_on site d es -> (forall e, In e es -> own_event site e = true) ->
  exists gs, gs <> [] /\ open_events site fs ++ es = open_events site gs.
Proof.
  induction es as [|e es IH]; intros d fs L G O.
  - exists fs. cbn in G. split; [intros ->; cbn in L; lia|]. apply app_nil_r.
  - assert (O' : forall e, In e es -> own_event site e = true) by (intros; apply O; now right).
    pose proof (O e (or_introl eq_refl)) as Oe. destruct e as [b s t|b t]; cbn in Oe; subst b; cbn [goes_on] in G.
    + destruct (IH (S d) (fs ++ [(s, t, [])])) as (gs & N & E); auto; [rewrite app_length; cbn; lia|].
      exists gs. split; auto. rewrite <- E. unfold open_events. rewrite flat_map_app. cbn [flat_map app]. now rewrite <- app_assoc.
    + destruct G as [G1 G2].
      destruct (exists_last (l := fs)) as (fs1 & [[s2 t2] subs2] & ->); [intros ->; cbn in L; lia|].
      destruct (exists_last (l := fs1)) as (fs0 & [[s1 t1] subs1] & ->); [intros ->; cbn in L; lia|].
      rewrite !app_length in L. cbn [length] in L.
      destruct (IH (d - 1) (fs0 ++ [(s1, t1, subs1 ++ [Call site s2 t2 t subs2])])) as (gs & N & E); auto; [rewrite app_length; cbn; lia|].
      exists gs. split; auto. rewrite <- E. unfold open_events. rewrite !flat_map_app. cbn [flat_map app events].
      rewrite !flat_map_app. cbn [flat_map events]. rewrite !app_nil_r. repeat (rewrite <- app_assoc; cbn [app]). reflexivity.
Qed.

Lemma ends_call : forall es d fs, length fs = d -> ends site d es -> (forall e, In e es -> own_event site e = true) ->
  exists c, open_events site fs ++ es = events site c.
Proof.
  induction es as [|e es IH]; intros d fs L G O; [destruct G|].
  assert (O' : forall e, In e es -> own_event site e = true) by (intros; apply O; now right).
  pose proof (O e (or_introl eq_refl)) as Oe. destruct e as [b s t|b t]; cbn in Oe; subst b; cbn [ends] in G.
  - destruct (IH (S d) (fs ++ [(s, t, [])])) as (c & E); auto; [rewrite app_length; cbn; lia|].
    exists c. rewrite <- E. unfold open_events. rewrite flat_map_app. cbn [flat_map app]. now rewrite <- app_assoc.
  - destruct es as [|e es].
    + destruct fs as [|[[s t0] subs] [|? ?]]; cbn in L; try lia.
      exists (Call site s t0 t subs). cbn [open_events flat_map app events]. now rewrite app_nil_r.
    + destruct G as [G1 G2].
      destruct (exists_last (l := fs)) as (fs1 & [[s2 t2] subs2] & ->); [intros ->; cbn in L; lia|].
      destruct (exists_last (l := fs1)) as (fs0 & [[s1 t1] subs1] & ->); [intros ->; cbn in L; lia|].
      rewrite !app_length in L. cbn [length] in L.
      destruct (IH (d - 1) (fs0 ++ [(s1, t1, subs1 ++ [Call site s2 t2 t subs2])])) as (c & E); auto; [rewrite app_length; cbn; lia|].
      exists c. rewrite <- E. unfold open_events. rewrite !flat_map_app. cbn [flat_map app events].
      rewrite !flat_map_app. cbn [flat_map events]. rewrite !app_nil_r. repeat (rewrite <- app_assoc; cbn [app]). reflexivity.
Qed.

Lemma own_own es e : In e (own site es) -> own_event site e = true.
Proof. intros H. now apply filter_In in H. Qed.

(** ** Times *)

Lemma ss_app : forall (a b : list N), StronglySorted N.le (a ++ b) ->
  StronglySorted N.le a /\ StronglySorted N.le b /\ forall x y, In x a -> In y b -> (x <= y)%N.
Proof.
  induction a as [|z a IH]; intros b H; cbn [app] in H.
  - split; [constructor|]. split; [exact H|]. intros x y [].
  - inversion H as [|? ? S F]; subst. destruct (IH b S) as (A & B & C). rewrite Forall_forall in F. split; [|split; [exact B|]].
    + constructor; [exact A|]. rewrite Forall_forall. intros x Hx. apply F. apply in_or_app. now left.
    + intros x y [<-|Hx] Hy; [apply F; apply in_or_app; now right|now apply C].
Qed.

Lemma time_began c : In (began site c) (map (time site) (events site c)).
Proof. destruct c. now left. Qed.
Lemma time_ended c : In (ended site c) (map (time site) (events site c)).
Proof. destruct c. cbn [events map ended]. right. rewrite map_app. apply in_or_app. right. now left. Qed.

Lemma began_ended c : StronglySorted N.le (map (time site) (events site c)) -> (began site c <= ended site c)%N.
Proof.
  destruct c as [s t0 t1 subs]. cbn [events map began ended time]. intros H. inversion H as [|? ? S F]; subst.
  rewrite Forall_forall in F. apply F. rewrite map_app. apply in_or_app. right. now left.
Qed.

Lemma cost_sum t1 : forall l t0,
  StronglySorted N.le (t0 :: map (time site) (flat_map (events site) l) ++ [t1]) ->
  (t0 + Nsum (map (cost site) l) <= t1)%N.
Proof.
  induction l as [|c l IH]; intros t0 H; cbn [flat_map map Nsum] in *.
  - inversion H as [|? ? S F]; subst. inversion F; subst. lia.
  - rewrite map_app in H. rewrite <- app_assoc in H.
    assert (B : (began site c <= ended site c)%N).
    { apply began_ended. inversion H as [|? ? S F]; subst. now apply ss_app in S. }
    assert (A : (t0 <= began site c)%N).
    { inversion H as [|? ? S F]; subst. rewrite Forall_forall in F. apply F. apply in_or_app. left. apply time_began. }
    assert (R : StronglySorted N.le (ended site c :: map (time site) (flat_map (events site) l) ++ [t1])).
    { inversion H as [|? ? S F]; subst. apply ss_app in S. destruct S as (_ & S2 & S3). constructor; [exact S2|].
      rewrite Forall_forall. intros y Hy. apply S3; [apply time_ended|exact Hy]. }
    specialize (IH _ R). unfold cost at 1. lia.
Qed.

Lemma sorted_sub c : forall d, StronglySorted N.le (map (time site) (events site c)) -> In d (calls_of site c) ->
  StronglySorted N.le (map (time site) (events site d)).
Proof.
  induction c as [s t0 t1 subs IH] using call_ind'. intros d H Hd. cbn [calls_of] in Hd. destruct Hd as [<-|Hd]; [exact H|].
  apply in_flat_map in Hd. destruct Hd as (c & Hc & Hd). rewrite Forall_forall in IH. apply (IH c Hc d); [|exact Hd].
  cbn [events map] in H. inversion H as [|? ? S F]; subst. rewrite map_app in S. apply ss_app in S. destruct S as (S & _ & _).
  clear - S Hc. induction subs as [|a l IHl]; [destruct Hc|]. cbn [flat_map] in S. rewrite map_app in S. apply ss_app in S.
  destruct S as (S1 & S2 & _). destruct Hc as [->|Hc]; [exact S1|now apply IHl].
Qed.

Lemma times_ok c d : ordered site (events site c) -> In d (calls_of site c) ->
  (began site d <= ended site d)%N /\
  (forall e, In e (subcalls site d) -> (began site d <= began site e /\ ended site e <= ended site d)%N) /\
  (Nsum (map (cost site) (subcalls site d)) <= cost site d)%N.
Proof.
  intros H Hd. assert (T : StronglySorted N.le (map (time site) (events site d))).
  { apply (sorted_sub c); [|exact Hd]. apply Sorted_StronglySorted; [intros x y z; apply N.le_trans|exact H]. }
  split; [now apply began_ended|]. destruct d as [s t0 t1 subs]. cbn [subcalls began ended]. split.
  - intros e He. cbn [events map time] in T. rewrite map_app in T. cbn [map time] in T.
    inversion T as [|? ? S F]; subst. apply ss_app in S. destruct S as (_ & _ & S3). rewrite Forall_forall in F.
    assert (M : forall x, In x (map (time site) (events site e)) -> In x (map (time site) (flat_map (events site) subs))).
    { intros x Hx. apply in_map_iff in Hx. destruct Hx as (ev & <- & Hev). apply in_map. apply in_flat_map. eauto. }
    split.
    + apply F. apply in_or_app. left. apply M. apply time_began.
    + apply S3; [apply M; apply time_ended|now left].
  - cbn [events map time] in T. rewrite map_app in T. cbn [map time] in T. apply cost_sum in T. change (cost site (Call site s t0 t1 subs)) with (t1 - t0)%N. lia.
Qed.

(** Every line of the list is a call. *)
Lemma indented_calls : forall c level x, In x (indented site level c) ->
  exists d, In d (calls_of site c) /\ snd x = (match d with Call _ s t0 t1 _ => (s, t0, t1) end).
Proof.
  induction c as [s t0 t1 subs IH] using call_ind'. intros level x H. cbn [indented] in H. destruct H as [<-|H].
  - eexists. split; [now left|reflexivity].
  - apply in_flat_map in H. destruct H as (c & Hc & Hx). rewrite Forall_forall in IH. destruct (IH c Hc _ _ Hx) as (d & Hd & E).
    exists d. split; [|exact E]. cbn [calls_of]. right. apply in_flat_map. eauto.
Qed.

Lemma time_cost_ok n : (n_begin site n <= n_end site n)%N -> (n_end site n < 2 ^ 64)%N ->
  time_cost site n = (n_end site n - n_begin site n)%N.
Proof.
  intros H1 H2. unfold time_cost. rewrite (N.mod_small (n_begin site n)) by lia.
  replace (n_end site n + (2 ^ 64 - n_begin site n))%N with (n_end site n - n_begin site n + 1 * 2 ^ 64)%N by lia.
  rewrite N.mod_add by lia. apply N.mod_small. lia.
Qed.

(** ** The theorems *)

Lemma span_tree_ok es c : own site es = events site c ->
  exists st, run site (init site) es = Some st /\ s_stack site st = [] /\
    forall fuel, 2 * size site c <= fuel ->
      exists d, span_dump site fuel st = Some d /\ map seen d = indented site 0 c.
Proof.
  intros E. destruct (run_closed c) as (st & u & R & (C1 & C2 & C3 & _) & U). exists st. split; [|split; [exact C1|]].
  - now rewrite run_own, E.
  - intros fuel F. unfold span_dump. rewrite C2, <- U. apply (dump_ok u _ None None None); [exact C3|]. now rewrite U.
Qed.

Lemma span_open_ok es f fs : own site es = open_events site (f :: fs) ->
  exists st, run site (init site) es = Some st /\ length (s_stack site st) = S (length fs) /\
    forall fuel, 2 * size site (open_tree site f fs) <= fuel ->
      exists d, span_dump site fuel st = Some d /\ map seen d = indented site 0 (open_tree site f fs).
Proof.
  intros E. destruct (run_open_first f fs) as (st & gs & g & R & (C1 & C2 & C3 & _) & U). exists st.
  pose proof (erase_top gs g) as T. rewrite U in T. split; [|split].
  - now rewrite run_own, E.
  - rewrite C1, rev_length, map_length. apply (f_equal (@length _)) in U. rewrite map_length in U. exact U.
  - intros fuel F. unfold span_dump. rewrite C2, <- T. apply (dump_ok _ _ None None None); [exact C3|]. now rewrite T.
Qed.

Lemma span_stop_tree_ok es s t0 subs t : own site es = open_events site [(s, t0, subs)] ->
  exists st st', run site (init site) es = Some st /\ span_stop site st true t = Some st' /\ s_stack site st' = [] /\
    forall fuel, 2 * size site (Call site s t0 t subs) <= fuel ->
      (exists d, span_dump site fuel st' = Some d /\ map seen d = indented site 0 (Call site s t0 t subs)) /\
      exists st'', span_release site fuel st' = Some st'' /\ s_root site st'' = None /\ forall j, s_heap site st'' j = None.
Proof.
  intros E. destruct (run_open_first (s, t0, subs) []) as (st & gs & g & R & I & U). exists st.
  destruct gs as [|g1 gs]; [|apply (f_equal (@length _)) in U; rewrite map_length, app_length in U; cbn in U; lia].
  destruct (exit_last st g t I) as (st1 & X & C).
  assert (EU : erase (close g t []) = Call site s t0 t subs).
  { destruct g as [[[i s'] t'] l]. cbn [app map erase_f] in U. injection U as -> -> <-. cbn. now rewrite app_nil_r. }
  eexists. split; [now rewrite run_own, E|]. unfold span_stop. rewrite X. cbn [obind]. split; [reflexivity|]. split; [reflexivity|].
  intros fuel F. split.
  - destruct C as (C1 & C2 & C3 & _). unfold span_dump. cbn [s_root s_heap]. rewrite C2, <- EU.
    apply (dump_ok _ _ None None None); [exact C3|]. now rewrite EU.
  - apply (release_ok _ (close g t [])); [|now rewrite EU].
    destruct C as (C1 & C2 & C3 & C4 & C5 & C6). split; [reflexivity|]. exact (conj C2 (conj C3 (conj C4 (conj C5 C6)))).
Qed.

Lemma span_release_all es c : own site es = events site c ->
  exists st, run site (init site) es = Some st /\
    forall fuel, 2 * size site c <= fuel ->
      exists st', span_release site fuel st = Some st' /\ s_root site st' = None /\ forall j, s_heap site st' j = None.
Proof.
  intros E. destruct (run_closed c) as (st & u & R & C & U). exists st. split; [now rewrite run_own, E|].
  intros fuel F. apply (release_ok _ u); [exact C|]. now rewrite U.
Qed.

Lemma span_cost_ok es c : own site es = events site c -> ordered site (own site es) -> (ended site c < 2 ^ 64)%N ->
  exists st, run site (init site) es = Some st /\
    forall fuel, 2 * size site c <= fuel ->
      exists d, span_dump site fuel st = Some d /\
        forall x, In x d -> (n_begin site (snd x) <= n_end site (snd x))%N /\
          time_cost site (snd x) = (n_end site (snd x) - n_begin site (snd x))%N.
Proof.
  intros E O B. destruct (span_tree_ok es c E) as (st & R & _ & D). exists st. split; [exact R|]. intros fuel F.
  destruct (D fuel F) as (d & D1 & D2). exists d. split; [exact D1|]. intros x Hx.
  assert (K : In (seen x) (indented site 0 c)) by (rewrite <- D2; now apply in_map).
  apply indented_calls in K. destruct K as (e & He & K). rewrite E in O. destruct (times_ok c e O He) as (T & _ & _).
  destruct e as [s t0 t1 subs]. unfold line in K. cbn [snd] in K. injection K as K1 K2 K3. cbn [began ended] in T.
  assert (L : (t1 <= ended site c)%N).
  { assert (IN : In t1 (map (time site) (events site c))).
    { clear - He. revert He. induction c as [s' a b l IH] using call_ind'. cbn [calls_of]. intros [H|H].
      - injection H as -> -> -> ->. apply (time_ended (Call site s t0 t1 subs)).
      - apply in_flat_map in H. destruct H as (q & Hq & Hd). rewrite Forall_forall in IH. specialize (IH q Hq Hd).
        cbn [events map]. right. rewrite map_app. apply in_or_app. left.
        apply in_map_iff in IH. destruct IH as (ev & <- & Hev). apply in_map. apply in_flat_map. eauto. }
    assert (SS : StronglySorted N.le (map (time site) (events site c))).
    { apply Sorted_StronglySorted; [intros x' y z; apply N.le_trans|exact O]. }
    destruct c as [s' a b l]. cbn [events ended] in *. rewrite app_comm_cons, map_app in SS, IN. cbn [map time] in SS, IN.
    apply ss_app in SS. destruct SS as (_ & _ & S3). apply in_app_or in IN. destruct IN as [IN|[<-|[]]]; [|lia].
    apply S3; [exact IN|now left]. }
  split; [lia|]. apply time_cost_ok; lia.
Qed.

End Proofs.

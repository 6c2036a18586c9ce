(** * C38: the span tree is the call tree *)

From Coq Require Import List Arith NArith Bool Lia Sorted.
From Verif Require Import Base SpanModel SpanSpec SpanProofs.
Import ListNotations.

(** Whatever other threads do in between: when the watched thread made the calls
    of [c], and the outermost has ended, the spans are the tree of [c], with its
    sites and times, in call order. *)
Theorem span_tree : forall site (es : list (event site)) (c : call site),
  own site es = events site c ->
  exists st, run site (init site) es = Some st /\ s_stack site st = [] /\
    forall fuel, 2 * size site c <= fuel ->
      exists d, span_dump site fuel st = Some d /\ map (line site) d = indented site 0 c.
Proof. intros site es c. exact (span_tree_ok site es c). Qed.
Print Assumptions span_tree.

(** While calls go on, the spans are the tree of the calls made so far. *)
Theorem span_tree_open : forall site (es : list (event site)) f fs,
  own site es = open_events site (f :: fs) ->
  exists st, run site (init site) es = Some st /\ length (s_stack site st) = S (length fs) /\
    forall fuel, 2 * size site (open_tree site f fs) <= fuel ->
      exists d, span_dump site fuel st = Some d /\
        map (line site) d = indented site 0 (open_tree site f fs).
Proof. intros site es f fs. exact (span_open_ok site es f fs). Qed.
Print Assumptions span_tree_open.

(** These are all the properly nested sequences: at every point at least one call
    goes on, until the last event, which may end the outermost one. *)
Theorem span_histories : forall site (es : list (event site)),
  (ends site 0 (own site es) -> exists c, own site es = events site c) /\
  (goes_on site 0 (own site es) -> exists f fs, own site es = open_events site (f :: fs)).
Proof.
  intros site es. split; intros H.
  - destruct (ends_call site (own site es) 0 [] eq_refl H (own_own site es)) as (c & E). exists c. exact E.
  - destruct (goes_on_open site (own site es) 0 [] eq_refl H (own_own site es)) as ([|f fs] & N & E); [congruence|].
    exists f, fs. exact E.
Qed.
Print Assumptions span_histories.

(** The list a dump gives determines the tree. *)
Theorem span_list_unique : forall site (c c' : call site),
  indented site 0 c = indented site 0 c' -> c = c'.
Proof. intros site c c'. exact (indented_unique site c c'). Qed.
Print Assumptions span_list_unique.

(** [mln_span_stop] ends the outermost call, and [mln_span_release] then frees
    every span, each once. *)
Theorem span_stop_release : forall site (es : list (event site)) s t0 subs t,
  own site es = open_events site [(s, t0, subs)] ->
  exists st st', run site (init site) es = Some st /\ span_stop site st true t = Some st' /\ s_stack site st' = [] /\
    forall fuel, 2 * size site (Call site s t0 t subs) <= fuel ->
      (exists d, span_dump site fuel st' = Some d /\ map (line site) d = indented site 0 (Call site s t0 t subs)) /\
      exists st'', span_release site fuel st' = Some st'' /\ s_root site st'' = None /\ forall j, s_heap site st'' j = None.
Proof. intros site es s t0 subs t. exact (span_stop_tree_ok site es s t0 subs t). Qed.
Print Assumptions span_stop_release.

Theorem span_releases : forall site (es : list (event site)) (c : call site),
  own site es = events site c ->
  exists st, run site (init site) es = Some st /\
    forall fuel, 2 * size site c <= fuel ->
      exists st', span_release site fuel st = Some st' /\ s_root site st' = None /\ forall j, s_heap site st' j = None.
Proof. intros site es c. exact (span_release_all site es c). Qed.
Print Assumptions span_releases.

(** If the clock does not go back, no span ends before it begins, and the time
    cost is the difference. *)
Theorem span_time_cost : forall site (es : list (event site)) (c : call site),
  own site es = events site c -> ordered site (own site es) -> (ended site c < 2 ^ 64)%N ->
  exists st, run site (init site) es = Some st /\
    forall fuel, 2 * size site c <= fuel ->
      exists d, span_dump site fuel st = Some d /\
        forall x, In x d -> (n_begin site (snd x) <= n_end site (snd x))%N /\
          time_cost site (snd x) = (n_end site (snd x) - n_begin site (snd x))%N.
Proof. intros site es c. exact (span_cost_ok site es c). Qed.
Print Assumptions span_time_cost.

(** Then the time of a call lies in that of its caller, and the calls made in a
    call do not cost more together than the call itself. *)
Theorem span_times_nest : forall site (c d : call site),
  ordered site (events site c) -> In d (calls_of site c) ->
  (began site d <= ended site d)%N /\
  (forall e, In e (subcalls site d) -> (began site d <= began site e /\ ended site e <= ended site d)%N) /\
  (Nsum (map (cost site) (subcalls site d)) <= cost site d)%N.
Proof. intros site c d. exact (times_ok site c d). Qed.
Print Assumptions span_times_nest.

(** ** A case *)

(** Two threads; the watched one runs 1, which calls 2 and 3, and 3 calls 2. *)
Definition sample : call nat :=
  Call nat 1 10 90 [Call nat 2 20 30 []; Call nat 3 40 80 [Call nat 2 50 60 []]].
Definition sample_events : list (event nat) :=
  [Enter nat false 7 5; Enter nat true 1 10; Enter nat true 2 20; Leave nat false 25; Leave nat true 30;
   Enter nat true 3 40; Enter nat false 8 45; Enter nat true 2 50; Leave nat true 60; Leave nat true 80;
   Leave nat true 90; Leave nat false 95].

Example sample_own : own nat sample_events = events nat sample.
Proof. reflexivity. Qed.
Example sample_ordered : ordered nat (own nat sample_events).
Proof. unfold ordered. cbn. repeat (apply Sorted_cons; [|constructor; discriminate] || apply Sorted_nil || (apply Sorted_cons; [|constructor])). Qed.
Example sample_dump :
  obind (run nat (init nat) sample_events) (fun st => obind (span_dump nat 8 st) (fun d => Some (map (line nat) d))) =
  Some [(0, (1, 10%N, 90%N)); (1, (2, 20%N, 30%N)); (1, (3, 40%N, 80%N)); (2, (2, 50%N, 60%N))].
Proof. vm_compute. reflexivity. Qed.
Example sample_open : own nat (firstn 8 sample_events) =
  open_events nat [(1, 10%N, [Call nat 2 20 30 []]); (3, 40%N, []); (2, 50%N, [])].
Proof. reflexivity. Qed.
Example sample_ends : ends nat 0 (own nat sample_events) /\ goes_on nat 0 (own nat (firstn 8 sample_events)).
Proof. cbn. repeat split; lia. Qed.

(** ** What does not hold *)

(** A call made after the outermost one has ended is in no tree, and is never
    freed. *)
Theorem span_second_root_refuted : exists (c1 c2 : call nat) st st',
  run nat (init nat) (events nat c1 ++ events nat c2) = Some st /\
  (exists d, span_dump nat 10 st = Some d /\ map (line nat) d = indented nat 0 c1) /\
  span_release nat 10 st = Some st' /\ exists j, s_heap nat st' j <> None.
Proof.
  exists (Call nat 1 1 2 []), (Call nat 2 3 4 []).
  eexists. eexists. split; [reflexivity|]. split; [eexists; split; reflexivity|]. split; [reflexivity|].
  exists 1. discriminate.
Qed.
Print Assumptions span_second_root_refuted.

(** Leaving a call that was not entered stops the program. *)
Theorem span_unmatched_exit_refuted : forall site (c : call site) t,
  run site (init site) (events site c ++ [Leave site true t]) = None.
Proof.
  intros site c t. destruct (run_closed site c) as (st & u & E & (C & _) & _).
  rewrite run_app, E. cbn [obind run step]. unfold span_exit. rewrite C. reflexivity.
Qed.
Print Assumptions span_unmatched_exit_refuted.

(** Spans released while a call goes on are used again when it ends. *)
Theorem span_release_early_refuted : exists (es : list (event nat)) st st',
  goes_on nat 0 es /\ run nat (init nat) es = Some st /\ span_release nat 10 st = Some st' /\
  forall t, step nat st' (Leave nat true t) = None.
Proof.
  exists [Enter nat true 1 1; Enter nat true 2 2].
  eexists. eexists. split; [cbn; lia|]. split; [reflexivity|]. split; [reflexivity|].
  intros t. reflexivity.
Qed.
Print Assumptions span_release_early_refuted.

(** Properties C30 and C31: the memory pools. *)
Require Import List Arith NArith Bool Permutation Lia.
Require Import Verif.Base Verif.AllocModel Verif.AllocSpec Verif.AllocProofs.
Import ListNotations.
Open Scope N_scope.

(** ** C30: size classes *)
(** A request of at most 2 MB is served from the least class that holds it; above 16 bytes that class is less than one and a half times the
    request. A larger request has no class. *)
Theorem pool_class_least : forall size, size <= 2 ^ 21 ->
  exists i, class_of size = Some i /\ class_for size = Some (class_size i) /\ In (class_size i) classes /\ size <= class_size i /\
    (forall c, In c classes -> size <= c -> class_size i <= c) /\ (16 < size -> 2 * class_size i < 3 * size).
Proof.
  intros size H. destruct (class_of_some size H) as (i & E). exists i. split; [exact E|]. split; [rewrite class_for_ok, E; reflexivity|]. pose proof (class_of_ok _ _ E) as (Hi & Hs & Hm).
  split; [rewrite classes_ok; apply in_map, in_seq; lia|]. split; [exact Hs|]. split.
  - intros c Hc Hle. rewrite classes_ok in Hc. apply in_map_iff in Hc. destruct Hc as (j & <- & Hj). apply in_seq in Hj. apply class_le; [apply Hm|]; try exact Hle; clear - Hj; lia.
  - intros H16. pose proof (class_waste _ _ E H16) as W. clear - W H16. lia.
Qed.
Print Assumptions pool_class_least.
Theorem pool_class_none : forall size, class_of size = None <-> 2 ^ 21 < size.
Proof. exact class_of_none. Qed.
Print Assumptions pool_class_none.
Example class_ex : map (fun s => option_map class_size (class_of s)) [0; 16; 17; 24; 25; 33; 48; 49; 1000; 1025; 2097152; 2097153] =
  [Some 16; Some 16; Some 24; Some 24; Some 32; Some 48; Some 48; Some 64; Some 1024; Some 1536; Some 2097152; None].
Proof. vm_compute. reflexivity. Qed.

(** In every history the block of a request is at least as long as the request. The pool asks below for a chunk of four blocks of the least class,
    or for one block of the length of the request, and asks for nothing else. *)
Theorem pool_request : forall cap v p o p' r n x, cap < 2 ^ 62 -> reach cap v p -> legal v o -> p_step p o = Some (p', r) ->
  o_ask r = Some (n, x) -> n = need (request o).
Proof.
  intros cap v p o p' r n x Hc R L E Ea. rewrite (step_asks _ _ _ _ _ _ E Ea). apply need_ok. destruct o; cbn [request legal] in *; try apply L; reflexivity.
Qed.
Print Assumptions pool_request.

(** ** C31: capacity and blocks *)
(** No call of a program that keeps to the rules goes wrong, whatever the allocator below answers. *)
Theorem pool_progress : forall cap v p o, cap < 2 ^ 62 -> reach cap v p -> legal v o -> exists p' r, p_step p o = Some (p', r).
Proof. intros cap v p o Hc R L. destruct (step_ok _ _ _ _ (reach_inv _ _ _ Hc R) Hc L) as (p' & r & E & _). eauto. Qed.
Print Assumptions pool_progress.
(** Two blocks that are held at a time have different addresses and no byte in common; each lies, behind the headers, in a chunk that the pool
    holds of the allocator below; and the bytes a program stored, or mln_alloc_c cleared, or mln_alloc_re moved, are there. *)
Theorem pool_blocks : forall cap v p, cap < 2 ^ 62 -> reach cap v p ->
  NoDup (map l_ptr (live v)) /\
  (forall b, In b (live v) -> exists c n, In (c, n) (held v) /\ c + 144 <= l_ptr b /\ l_ptr b + l_len b <= c + n) /\
  (forall b b', In b (live v) -> In b' (live v) -> l_ptr b <> l_ptr b' -> apart (l_ptr b) (l_len b) (l_ptr b') (l_len b')) /\
  (forall b i x, In b (live v) -> i < l_len b -> l_bytes b i = Some x -> mem p (l_ptr b + i) = x).
Proof. intros cap v p Hc R. exact (blocks_ok _ _ _ (reach_inv _ _ _ Hc R)). Qed.
Print Assumptions pool_blocks.
(** With a capacity, the pool counts the chunks it holds and the requests to the allocator below that failed; the sum never exceeds the
    capacity; and the available capacity is the rest. Missing from the full property: the count does not go back to zero, see below. *)
Theorem pool_capacity_partial : forall cap v p, cap < 2 ^ 62 -> reach cap v p -> cap <> 0 ->
  in_used p = total (held v) + lost v /\ total (held v) + lost v <= cap /\ available p = cap - (total (held v) + lost v).
Proof.
  intros cap v p Hc R Hz. pose proof (reach_inv _ _ _ Hc R) as I. pose proof (i_cap _ _ _ I) as Ec. destruct (i_c _ _ _ I) as [H1 H2]; [rewrite Ec; exact Hz|]. rewrite Ec in H2. split; [exact H1|]. split; [rewrite <- H1; exact H2|].
  unfold available. rewrite Ec, (proj2 (N.eqb_neq _ _) Hz), H1. reflexivity.
Qed.
Print Assumptions pool_capacity_partial.
(** Blocks that were given back are used again: for a request of up to 393216 bytes the allocator below is asked only when all four blocks of
    every chunk that is held for the class are live. (A chunk for larger requests can have the length of a large block.) *)
Theorem pool_reuse : forall cap v p o p' r n x, cap < 2 ^ 62 -> reach cap v p -> legal v o -> p_step p o = Some (p', r) -> request o <= 393216 -> o_ask r = Some (n, x) ->
  forall c k, In (c, n) (held v) -> k < 4 -> In (c + 144 + k * ((n - 88) / 4)) (map l_ptr (live v)).
Proof. intros cap v p o p' r n x Hc R _ E Hr Ea. exact (reuse_ok _ _ _ _ _ _ _ _ (reach_inv _ _ _ Hc R) E Hr Ea). Qed.
Print Assumptions pool_reuse.
(** A request is refused only when the allocator below refuses, or when a new chunk for it would exceed the capacity. *)
Theorem pool_refusal : forall cap v p o p' r, cap < 2 ^ 62 -> reach cap v p -> legal v o -> p_step p o = Some (p', r) -> asks o -> o_ptr r = None ->
  o_ask r = Some (need (request o), None) \/ (o_ask r = None /\ cap <> 0 /\ cap < total (held v) + lost v + need (request o)).
Proof.
  intros cap v p o p' r Hc R L E Ha Hn. destruct (reach_step_ok _ _ _ _ _ _ Hc R L E) as (_ & _ & Hr). pose proof (reach_inv _ _ _ Hc R) as I. pose proof (i_cap _ _ _ I) as Ec.
  assert (Es : need_of (request o) = need (request o)) by (apply need_ok; destruct o; cbn [request legal] in *; try apply L; reflexivity). destruct (Hr Ha Hn) as [[n En]|[Hz En]].
  - left. rewrite En. f_equal. f_equal. rewrite <- Es. exact (step_asks _ _ _ _ _ _ E En).
  - right. split; [exact En|]. split; [exact Hz|]. destruct (step_full _ _ _ _ E Ha Hn En) as [_ H]. destruct (i_c _ _ _ I) as [H1 _]; [rewrite Ec; exact Hz|]. rewrite Ec, Es, H1 in H. clear - H. lia.
Qed.
Print Assumptions pool_refusal.
(** A pool without limit whose allocator does not fail never answers NULL. *)
Theorem pool_unlimited : forall v p o p' r, reach 0 v p -> legal v o -> p_step p o = Some (p', r) -> asks o ->
  (forall n, o_ask r <> Some (n, None)) -> o_ptr r <> None.
Proof. intros v p o p' r R L E Ha Hf Hn. destruct (pool_refusal 0 v p o p' r eq_refl R L E Ha Hn) as [C|(_ & C & _)]; [exact (Hf _ C)|apply C; reflexivity]. Qed.
Print Assumptions pool_unlimited.
(** Only chunks the pool holds are given back, and the end of the pool gives back each of the others once. *)
Theorem pool_gives_back : forall cap v p, cap < 2 ^ 62 -> reach cap v p ->
  (forall o p' r a, legal v o -> p_step p o = Some (p', r) -> o_back r = Some a -> In a (map fst (held v)) \/ exists n, o_ask r = Some (n, Some a)) /\
  Permutation (destroyed p) (map fst (held v)) /\ NoDup (map fst (held v)).
Proof.
  intros cap v p Hc R. pose proof (reach_inv _ _ _ Hc R) as I. split; [|split; [exact (destroyed_perm _ _ (i_s _ _ _ I))|exact (s_once _ _ (i_s _ _ _ I))]].
  intros o p' r a L E Eb. destruct (reach_step_ok _ _ _ _ _ _ Hc R L E) as (_ & Hb & _). specialize (Hb _ Eb). unfold asked in Hb. destruct (o_ask r) as [[n [c|]]|]; [|left; exact Hb|left; exact Hb].
  destruct Hb as [Hb|Hb]; [right; exists n; cbn [fst] in Hb; subst c; reflexivity|left; exact Hb].
Qed.
Print Assumptions pool_gives_back.
(** Blocks are aligned to 8 bytes when the chunks are. *)
Theorem pool_aligned_partial : forall cap v p, cap < 2 ^ 62 -> reach cap v p -> (forall c n, In (c, n) (held v) -> c mod 8 = 0) ->
  forall b, In b (live v) -> l_ptr b mod 8 = 0.
Proof. intros cap v p Hc R. exact (aligned_ok _ _ _ (reach_inv _ _ _ Hc R)). Qed.
Print Assumptions pool_aligned_partial.

(** *** A history *)
Definition mem0 : N -> N := fun _ => 170.
(** malloc at the address [a] for up to 2^20 bytes. *)
Definition at_addr (a : N) : N -> option N := fun n => if n <=? 1048576 then Some a else None.
Definition run1 (vp : view * pool) (o : op) : view * pool := match p_step (snd vp) o with Some (p', r) => (view_step (fst vp) o r, p') | None => vp end.
Lemma reach_run1 cap vp o : reach cap (fst vp) (snd vp) -> legal (fst vp) o -> (if p_step (snd vp) o then true else false) = true -> reach cap (fst (run1 vp o)) (snd (run1 vp o)).
Proof. intros R L H. unfold run1. destruct (p_step (snd vp) o) as [[p' r]|] eqn:E; [|discriminate]. cbn [fst snd]. eapply reach_step; eassumption. Qed.
Lemma at_addr_fair (vp : view * pool) a h : held (fst vp) = h -> 0 < a -> a < 2 ^ 40 -> forallb (fun c => ((a + 1048576 <=? fst c) || (fst c + snd c <=? a))) h = true -> fair (fst vp) (at_addr a).
Proof.
  intros Eh H0 Ha Hf n x. unfold at_addr. destruct (N.leb_spec n 1048576) as [Hn|]; [|discriminate]. intros E. injection E as <-. split; [exact H0|].
  split. { change (2 ^ 40) with 1099511627776 in Ha. change (2 ^ 64) with 18446744073709551616. clear - Ha Hn. lia. }
  intros c m Hc. rewrite Eh in Hc. rewrite forallb_forall in Hf. specialize (Hf _ Hc). cbn [fst snd] in Hf. unfold apart. apply orb_true_iff in Hf. destruct Hf as [H|H]; apply N.leb_le in H; clear - H Hn; lia.
Qed.
Ltac legal_tac h := split; [reflexivity|]; apply (at_addr_fair _ _ h); [vm_compute; reflexivity|reflexivity|reflexivity|vm_compute; reflexivity].
Definition s0 : view * pool := (mkView [] [] 0, pool_new 10000 mem0).
Definition s1 := run1 s0 (AAlloc 10 (at_addr 4096)).
Definition s2 := run1 s1 (AZero 300 (at_addr 2000000)).
Definition s3 := run1 s2 (AStore 4462 7).
Definition s4 := run1 s3 (AAlloc 16 (fun _ => None)).
Definition s5 := run1 s4 (ARe 4456 20 (at_addr 4000000)).
Definition s6 := run1 s5 (AFree 2001464).
Lemma reach_1 : reach 10000 (fst s1) (snd s1).
Proof. apply (reach_run1 _ s0); [apply reach_new|legal_tac (@nil (N * N))|vm_compute; reflexivity]. Qed.
Lemma reach_2 : reach 10000 (fst s2) (snd s2).
Proof. apply (reach_run1 _ s1); [exact reach_1|legal_tac [(4096, 376)]|vm_compute; reflexivity]. Qed.
Lemma reach_3 : reach 10000 (fst s3) (snd s3).
Proof. apply (reach_run1 _ s2); [exact reach_2| |vm_compute; reflexivity]. exists (mkLb 4456 10 (fun _ => None)). split; [vm_compute; tauto|]. split; reflexivity || discriminate. Qed.
Lemma reach_4 : reach 10000 (fst s4) (snd s4).
Proof. apply (reach_run1 _ s3); [exact reach_3|split; [reflexivity|discriminate]|vm_compute; reflexivity]. Qed.
Lemma reach_5 : reach 10000 (fst s5) (snd s5).
Proof.
  apply (reach_run1 _ s4); [exact reach_4| |vm_compute; reflexivity]. split; [reflexivity|]. split; [|vm_compute; tauto].
  apply (at_addr_fair _ _ [(2000000, 1848); (4096, 376)]); [vm_compute; reflexivity|reflexivity|reflexivity|vm_compute; reflexivity].
Qed.
Lemma reach_6 : reach 10000 (fst s6) (snd s6).
Proof. apply (reach_run1 _ s5); [exact reach_5|vm_compute; tauto|vm_compute; reflexivity]. Qed.
(** Three chunks are held, two blocks are live; the byte stored before the block moved is in the new block. *)
Example pool_ex : 10000 < 2 ^ 62 /\ reach 10000 (fst s6) (snd s6) /\ held (fst s6) = [(4000000, 408); (2000000, 1848); (4096, 376)] /\
  map (fun b => (l_ptr b, l_len b, l_bytes b 6)) (live (fst s6)) = [(4000384, 20, Some 7); (4384, 16, None)] /\
  mem (snd s6) 4000390 = 7 /\ in_used (snd s6) = 2632 /\ available (snd s6) = 7368 /\ destroyed (snd s6) = [4096; 4000000; 2000000].
Proof. split; [reflexivity|]. split; [exact reach_6|]. vm_compute. repeat split; reflexivity. Qed.
(** With four blocks live, the fifth needs a second chunk. *)
Example pool_reuse_ex : option_map (fun r => map o_ask (snd r)) (p_run (pool_new 0 mem0) [AAlloc 10 (at_addr 4096); AAlloc 10 (at_addr 4096); AAlloc 10 (at_addr 4096); AFree 4384; AAlloc 10 (at_addr 4096); AAlloc 10 (at_addr 4096); AAlloc 10 (at_addr 2000000)]) =
  Some [Some (376, Some 4096); None; None; None; None; None; Some (376, Some 2000000)].
Proof. vm_compute. reflexivity. Qed.
(** A capacity of 400 bytes holds one chunk of the least class and nothing more: the second class is refused. *)
Example pool_full_ex : option_map (fun r => map o_ptr (snd r)) (p_run (pool_new 400 mem0) [AAlloc 10 (at_addr 4096); AAlloc 20 (at_addr 2000000); AAlloc 3 (fun _ => None)]) =
  Some [Some 4456; None; Some 4384].
Proof. vm_compute. reflexivity. Qed.
(** When a chunk of the class cannot be had, a block of a larger class serves. *)
Example pool_larger_ex : option_map (fun r => map o_ptr (snd r)) (p_run (pool_new 0 mem0) [AAlloc 100 (at_addr 4096); AAlloc 20 (fun _ => None)]) =
  Some [Some 4792; Some 4608].
Proof. vm_compute. reflexivity. Qed.

(** *** What is not so *)
(** Freeing everything does not return the usage to zero: a chunk is kept until it has been empty 1024 times. *)
Theorem pool_empty_refuted : ~ (forall cap v p, cap < 2 ^ 62 -> reach cap v p -> cap <> 0 -> live v = [] -> in_used p = 0).
Proof.
  intros H. set (s1 := run1 (mkView [] [] 0, pool_new 10000 mem0) (AAlloc 10 (at_addr 4096))). set (s2 := run1 s1 (AFree 4456)).
  assert (R1 : reach 10000 (fst s1) (snd s1)) by (apply reach_run1; [apply reach_new|legal_tac (@nil (N * N))|vm_compute; reflexivity]).
  assert (R2 : reach 10000 (fst s2) (snd s2)) by (apply reach_run1; [exact R1|vm_compute; tauto|vm_compute; reflexivity]).
  specialize (H 10000 _ _ eq_refl R2 ltac:(discriminate) ltac:(vm_compute; reflexivity)). vm_compute in H. discriminate.
Qed.
Print Assumptions pool_empty_refuted.
(** A request that the allocator below refuses is counted all the same: a pool that holds nothing has no capacity left. *)
Theorem pool_failure_refuted : ~ (forall cap v p, cap < 2 ^ 62 -> reach cap v p -> cap <> 0 -> in_used p = total (held v)).
Proof.
  intros H. set (s1 := run1 (mkView [] [] 0, pool_new 400 mem0) (AAlloc 10 (fun _ => None))).
  assert (R1 : reach 400 (fst s1) (snd s1)) by (apply reach_run1; [apply reach_new|split; [reflexivity|discriminate]|vm_compute; reflexivity]).
  specialize (H 400 _ _ eq_refl R1 ltac:(discriminate)). vm_compute in H. discriminate.
Qed.
Print Assumptions pool_failure_refuted.
(** Without the bound on the requests: 2^64 - 140 bytes are asked for, 4 are taken from below, and the block is said to be there. *)
Theorem pool_huge_refuted : ~ (forall p size ans p' r n a q, p = pool_new 0 mem0 -> size < 2 ^ 64 -> fair (mkView [] [] 0) ans -> alloc_m p size ans = Some (p', r) ->
  o_ask r = Some (n, Some a) -> o_ptr r = Some q -> a <= q /\ q + size <= a + n).
Proof.
  intros H. assert (Hf : fair (mkView [] [] 0) (at_addr 4096)) by (apply (at_addr_fair (mkView [] [] 0, pool_new 0 mem0) 4096 []); reflexivity).
  set (r := alloc_m (pool_new 0 mem0) (2 ^ 64 - 140) (at_addr 4096)). destruct r as [[p' o]|] eqn:E; [|vm_compute in E; discriminate].
  specialize (H _ (2 ^ 64 - 140) _ p' o 4 4096 4240 eq_refl eq_refl Hf E). assert (Eo : o = mkOut (Some 4240) (Some (4, Some 4096)) None).
  { change o with (match Some (p', o) with Some (_, x) => x | None => o end). rewrite <- E. vm_compute. reflexivity. }
  rewrite Eo in H. destruct (H eq_refl eq_refl) as [_ C]. vm_compute in C. apply C. reflexivity.
Qed.
Print Assumptions pool_huge_refuted.
(** And a refused request near 2^64 lowers the count of the bytes in use: 376 bytes are held, 320 are counted. *)
Theorem pool_count_refuted : ~ (forall p size p' r, (exists a, option_map fst (alloc_m (pool_new 400 mem0) 10 (at_addr a)) = Some p) ->
  size < 2 ^ 64 -> alloc_m p size (fun _ => None) = Some (p', r) -> in_used p <= in_used p').
Proof.
  intros H. destruct (alloc_m (pool_new 400 mem0) 10 (at_addr 4096)) as [[p o]|] eqn:E; [|vm_compute in E; discriminate].
  assert (Ei : in_used p = 376). { change p with (match Some (p, o) with Some (x, _) => x | None => p end). rewrite <- E. vm_compute. reflexivity. }
  assert (Ec : capacity p = 400). { change p with (match Some (p, o) with Some (x, _) => x | None => p end). rewrite <- E. vm_compute. reflexivity. }
  destruct (alloc_m p (2 ^ 64 - 200) (fun _ => None)) as [[p' r]|] eqn:E2.
  - specialize (H p (2 ^ 64 - 200) p' r). rewrite E2 in H. assert (Hx : in_used p <= in_used p') by (apply H; [exists 4096; rewrite E; reflexivity|reflexivity|reflexivity]).
    unfold alloc_m in E2. change (class_of (2 ^ 64 - 200)) with (@None nat) in E2. unfold large_m, reserve in E2. cbv zeta in E2. rewrite Ec, Ei in E2.
    change (400 =? 0) with false in E2. cbv iota in E2. match type of E2 with context [if ?c then _ else _] => change c with false in E2 end. cbv iota in E2. injection E2 as <- _. cbn [set_used in_used] in Hx. rewrite Ei in Hx. vm_compute in Hx. apply Hx. reflexivity.
  - unfold alloc_m in E2. change (class_of (2 ^ 64 - 200)) with (@None nat) in E2. discriminate.
Qed.
Print Assumptions pool_count_refuted.
(** Blocks are not aligned to 16 bytes, as those of malloc are, even when the chunks are. *)
Theorem pool_aligned_16_refuted : ~ (forall cap v p, cap < 2 ^ 62 -> reach cap v p -> (forall c n, In (c, n) (held v) -> c mod 16 = 0) ->
  forall b, In b (live v) -> l_ptr b mod 16 = 0).
Proof.
  intros H. set (s1 := run1 (mkView [] [] 0, pool_new 10000 mem0) (AAlloc 10 (at_addr 4096))).
  assert (R1 : reach 10000 (fst s1) (snd s1)) by (apply reach_run1; [apply reach_new|legal_tac (@nil (N * N))|vm_compute; reflexivity]).
  specialize (H 10000 _ _ eq_refl R1). assert (Eh : held (fst s1) = [(4096, 376)]) by (vm_compute; reflexivity). rewrite Eh in H.
  assert (Hb : In (mkLb 4456 10 (fun _ => None)) (live (fst s1))) by (vm_compute; left; reflexivity).
  specialize (H ltac:(intros c n [E|[]]; injection E as <- _; reflexivity) _ Hb). vm_compute in H. discriminate.
Qed.
Print Assumptions pool_aligned_16_refuted.
(** Moving a block into another pool with a smaller size copies the whole old block over the end of the new one. *)
Theorem pool_move_refuted : ~ (forall p1 p2 q size ans p1' p2' o n a x, size <> 0 -> alloc_re_other p1 p2 q size ans = Some (p1', p2', o, n) ->
  o_ptr o = Some a -> blks p2' (a - blk_hdr) = Some x -> n <= b_size x).
Proof.
  intros H. destruct (alloc_m (pool_new 0 mem0) 1000 (at_addr 4096)) as [[p1 o1]|] eqn:E1; [|vm_compute in E1; discriminate].
  set (pp := match alloc_m (pool_new 0 mem0) 1000 (at_addr 4096) with Some (x, _) => x | None => pool_new 0 mem0 end).
  set (q := 4096 + 88 + 3 * (56 + 1024) + 56).
  destruct (alloc_re_other pp (pool_new 0 mem0) q 10 (at_addr 2000000)) as [[[[p1' p2'] o] n]|] eqn:E; [|vm_compute in E; discriminate].
  set (d := (pool_new 0 mem0, pool_new 0 mem0, mkOut None None None, 0)).
  assert (En : n = 1024). { change n with (snd (match Some (p1', p2', o, n) with Some x => x | None => d end)). rewrite <- E. vm_compute. reflexivity. }
  assert (Eo : o_ptr o = Some 2000360). { change o with (snd (fst (match Some (p1', p2', o, n) with Some x => x | None => d end))). rewrite <- E. vm_compute. reflexivity. }
  assert (Eb : blks p2' (2000360 - blk_hdr) = Some (mkBlk 2000000 16 false)). { change p2' with (snd (fst (fst (match Some (p1', p2', o, n) with Some x => x | None => d end)))). rewrite <- E. vm_compute. reflexivity. }
  specialize (H pp (pool_new 0 mem0) q 10 (at_addr 2000000) p1' p2' o n 2000360 _ ltac:(discriminate) E Eo Eb). rewrite En in H. vm_compute in H. apply H. reflexivity.
Qed.
Print Assumptions pool_move_refuted.

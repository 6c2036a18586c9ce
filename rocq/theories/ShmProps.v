(** Property C32: the pools in shared memory. *)
Require Import List Arith NArith Bool Lia.
Require Import Verif.Base Verif.AllocModel Verif.AllocSpec Verif.ShmModel Verif.ShmSpec Verif.ShmProofs.
Import ListNotations.
Open Scope N_scope.

(** No call of a program that keeps to the rules goes wrong. *)
Theorem shm_progress : forall cap l p o, cap < 2 ^ 62 -> sreach cap l p -> slegal l o -> exists p' r, shm_step p o = Some (p', r).
Proof. intros cap l p o Hc R L. destruct (step_ok _ _ _ _ (sreach_inv _ _ _ Hc R) L) as (p' & r & E & _). eauto. Qed.
Print Assumptions shm_progress.
(** The areas of the pool lie behind its header and in its capacity, and no two of them have a byte in common. *)
Theorem shm_segments : forall cap l p, cap < 2 ^ 62 -> sreach cap l p ->
  (forall s, In s (sh_segs p) -> 2048 <= g_addr s /\ g_addr s + g_size s <= cap) /\
  (forall s t, In s (sh_segs p) -> In t (sh_segs p) -> s <> t -> apart (g_addr s) (g_size s) (g_addr t) (g_size t)).
Proof.
  intros cap l p Hc R. pose proof (sreach_inv _ _ _ Hc R) as I. destruct (n_ok _ _ _ I) as (_ & I0 & _). pose proof (i_ord _ _ _ I0) as O. rewrite (n_cap _ _ _ I) in O. split.
  - intros s Hs. destruct (ordered_in _ _ _ _ O Hs) as (H1 & _ & H2). split; assumption.
  - intros s t Hs Ht Hn. destruct (ordered_apart _ _ _ _ _ O Hs Ht) as [|C]; [contradiction|exact C].
Qed.
Print Assumptions shm_segments.
(** Two blocks that are held at a time have different addresses, and have no byte in common, not even with the header of the other; each is as long as
    was asked for and lies in an area of the pool, behind the header of that area; and the bytes that a program stored, or mln_alloc_c cleared, or
    mln_alloc_re moved, are there. *)
Theorem shm_blocks : forall cap l p, cap < 2 ^ 62 -> sreach cap l p ->
  NoDup (map v_ptr l) /\
  (forall b, In b l -> v_len b <= v_room b /\ exists s, In s (sh_segs p) /\ g_addr s + 4144 + 56 <= v_ptr b /\ v_ptr b + v_room b <= g_addr s + g_size s) /\
  (forall b b', In b l -> In b' l -> b <> b' -> apart (v_ptr b - 56) (56 + v_room b) (v_ptr b' - 56) (56 + v_room b')) /\
  (forall b i v, In b l -> i < v_len b -> v_bytes b i = Some v -> sh_mem p (v_ptr b + i) = v).
Proof.
  intros cap l p Hc R. pose proof (sreach_inv _ _ _ Hc R) as I. split; [apply I|]. split; [|split; [|apply I]].
  - intros b Hb. destruct (n_blk _ _ _ I b Hb) as (a & k & E1 & E2 & E3 & E4). split; [exact E4|]. destruct (n_ok _ _ _ I) as (_ & I0 & _). destruct (blk_place _ _ _ _ _ I0 E2) as (s & Hs & _ & H1 & H2 & _).
    exists s. split; [exact Hs|]. rewrite E1, <- E3. clear - H1 H2. lia.
  - intros b b' Hb Hb' Hn. eapply live_apart; try eassumption. intros E. apply Hn. eapply same_ptr; eassumption.
Qed.
Print Assumptions shm_blocks.
(** A unit of an area of small blocks is marked when it belongs to the header of the area or has a byte of a live block or of its header, and in no
    other case. *)
Theorem shm_units : forall cap l p s, cap < 2 ^ 62 -> sreach cap l p -> In s (sh_segs p) -> g_large s = false -> forall k, k < all_units ->
  (unit_set s k = true <-> k < first_units \/ exists b, In b l /\ takes s b k).
Proof. intros cap l p s Hc R Hs L. exact (unit_ok _ _ _ _ (sreach_inv _ _ _ Hc R) Hs L). Qed.
Print Assumptions shm_units.
(** Every area has a live block; a pool without live blocks has none, so all of its capacity is free. *)
Theorem shm_no_leak : forall cap l p, cap < 2 ^ 62 -> sreach cap l p -> (forall s, In s (sh_segs p) -> exists b, In b l /\ lies_in s b) /\ (l = [] -> sh_segs p = []).
Proof.
  intros cap l p Hc R. pose proof (fun s => seg_busy _ _ _ s (sreach_inv _ _ _ Hc R)) as H. split; [exact H|]. intros ->. destruct (sh_segs p) as [|s x]; [reflexivity|]. destruct (H s (or_introl eq_refl)) as (b & [] & _).
Qed.
Print Assumptions shm_no_leak.
(** mln_alloc_free of a block makes exactly its units available: if the block was the last one of its area, the area is free afterwards; if not,
    the units of the area that are marked afterwards are those marked before that are not units of the block. The other areas stay. *)
Theorem shm_free_exact : forall cap l p b p' r, cap < 2 ^ 62 -> sreach cap l p -> In b l -> shm_step p (SFree (v_ptr b)) = Some (p', r) ->
  exists s, In s (sh_segs p) /\ lies_in s b /\
  (forall t, t <> s -> (In t (sh_segs p) -> In t (sh_segs p')) /\ (In t (sh_segs p') -> In t (sh_segs p) \/ g_addr t = g_addr s)) /\
  (((forall c, In c l -> lies_in s c -> c = b) /\ unused p' (g_addr s) (g_size s)) \/
   ((exists c, In c l /\ lies_in s c /\ c <> b) /\ g_large s = false /\
    exists s', In s' (sh_segs p') /\ g_addr s' = g_addr s /\ g_size s' = g_size s /\ g_large s' = false /\
      forall k, k < all_units -> (unit_set s' k = true <-> unit_set s k = true /\ ~ takes s b k))).
Proof.
  intros cap l p b p' r Hc R Hb E. cbn [shm_step] in E. destruct (shm_free p (v_ptr b)) as [p1|] eqn:F; [|discriminate]. cbn [obind] in E. injection E as <- _. eapply free_exact; [eapply sreach_inv; eassumption|exact Hb|exact F].
Qed.
Print Assumptions shm_free_exact.
(** A request is refused only for want of room. Up to 1.5 MB: every area of small blocks lacks a run of free units long enough for the block and
    its header, and no 2 MB of the pool lie outside the areas. Above: the pool has no such gap for the block with its headers. The pool is as before,
    and a block that was to be resized is kept. *)
Theorem shm_refusal : forall cap l p o p' size, cap < 2 ^ 62 -> sreach cap l p -> slegal l o -> shm_step p o = Some (p', None) ->
  o = SAlloc size \/ o = SZero size \/ (exists q, o = SRe q size /\ size <> 0) ->
  p' = p /\ slive_step l o None = l /\
  (size <= 1572864 -> (forall a, ~ unused p a 2097152) /\ forall s k, In s (sh_segs p) -> g_large s = false -> ~ free_run s k ((size + 56 + 63) / 64)) /\
  (1572864 < size -> forall a, ~ unused p a (size + 4144 + 56)).
Proof.
  intros cap l p o p' size Hc R L E Ho. destruct (step_ok _ _ _ _ (sreach_inv _ _ _ Hc R) L) as (p2 & r2 & E2 & _ & H). rewrite E in E2. injection E2 as <- <-.
  assert (H' : p' = p /\ no_room p size) by (destruct Ho as [->|[->|(q & -> & Hz)]]; cbn [refusal] in H; auto). destruct H' as [-> H']. split; [reflexivity|]. split.
  - destruct Ho as [->|[->|(q & -> & Hz)]]; cbn [slive_step]; try reflexivity. destruct (N.eqb_spec size 0); [contradiction|reflexivity].
  - unfold no_room in H'. destruct (N.ltb_spec 1572864 size) as [C|C].
    + split; [intros X; exfalso; clear - C X; lia|]. intros _ a. replace (size + 4144 + 56) with (size + 4200) by (clear; lia). apply H'.
    + split; [|intros X; exfalso; clear - C X; lia]. intros _. destruct H' as [H1 H2]. split; [exact H1|]. intros s k. replace ((size + 56 + 63) / 64) with (units size) by (unfold units, blk_hdr, unit; f_equal; clear; lia). apply H2.
Qed.
Print Assumptions shm_refusal.
(** In a pool with one area, of small blocks, the available capacity is the room of the free units of that area. For other pools it is
    not what is available, see below. *)
Theorem shm_available_partial : forall cap l p s, cap < 2 ^ 62 -> sreach cap l p -> sh_segs p = [s] -> g_large s = false ->
  shm_available p = Some (64 * N.of_nat (length (filter (fun k => negb (unit_set s (N.of_nat k))) (seq 0 (8 * length (g_map s)))))).
Proof. exact available_ok. Qed.
Print Assumptions shm_available_partial.

(** ** A case *)
Definition srun1 (vp : list sl * shm) (o : sop) : list sl * shm := match shm_step (snd vp) o with Some (p', r) => (slive_step (fst vp) o r, p') | None => vp end.
Lemma sreach_run1 cap vp o : sreach cap (fst vp) (snd vp) -> slegal (fst vp) o -> (if shm_step (snd vp) o then true else false) = true -> sreach cap (fst (srun1 vp o)) (snd (srun1 vp o)).
Proof. intros R L H. unfold srun1. destruct (shm_step (snd vp) o) as [[p' r]|] eqn:E; [|discriminate]. cbn [fst snd]. eapply sreach_step; eassumption. Qed.
Definition z0 : list sl * shm := ([], mkShm 5000000 [] (fun _ => None) (fun _ => 0)).
Definition z1 := srun1 z0 (SAlloc 10).
Definition z2 := srun1 z1 (SZero 100).
Definition z3 := srun1 z2 (SStore 6267 7).
Definition z4 := srun1 z3 (SAlloc 1600000).
Definition z5 := srun1 z4 (SRe 6264 200).
Definition z6 := srun1 z5 (SFree 2103400).
Definition z7 := srun1 z6 (SAlloc 50).
Lemma zreach_1 : sreach 5000000 (fst z1) (snd z1).
Proof. apply (sreach_run1 _ z0); [apply (sreach_new _ (fun _ => 0)); reflexivity|reflexivity|vm_compute; reflexivity]. Qed.
Lemma zreach_2 : sreach 5000000 (fst z2) (snd z2).
Proof. apply (sreach_run1 _ z1); [exact zreach_1|reflexivity|vm_compute; reflexivity]. Qed.
Lemma zreach_3 : sreach 5000000 (fst z3) (snd z3).
Proof. apply (sreach_run1 _ z2); [exact zreach_2| |vm_compute; reflexivity]. exists (mkSl 6264 10 10 (fun _ => None)). split; [vm_compute; tauto|]. split; reflexivity || discriminate. Qed.
Lemma zreach_4 : sreach 5000000 (fst z4) (snd z4).
Proof. apply (sreach_run1 _ z3); [exact zreach_3|reflexivity|vm_compute; reflexivity]. Qed.
Lemma zreach_5 : sreach 5000000 (fst z5) (snd z5).
Proof. apply (sreach_run1 _ z4); [exact zreach_4|split; [reflexivity|vm_compute; tauto]|vm_compute; reflexivity]. Qed.
Lemma zreach_6 : sreach 5000000 (fst z6) (snd z6).
Proof. apply (sreach_run1 _ z5); [exact zreach_5|vm_compute; tauto|vm_compute; reflexivity]. Qed.
Lemma zreach_7 : sreach 5000000 (fst z7) (snd z7).
Proof. apply (sreach_run1 _ z6); [exact zreach_6|reflexivity|vm_compute; reflexivity]. Qed.
(** The large block has an area of its own, until it is given back. The first block moves, with the byte that was stored in it, and its two units
    are used again. *)
Example shm_ex : 5000000 < 2 ^ 62 /\ sreach 5000000 (fst z7) (snd z7) /\
  map (fun s => (g_addr s, g_size s, g_large s)) (sh_segs (snd z5)) = [(2048, 2097152, false); (2099200, 1604200, true)] /\
  map (fun s => (g_addr s, g_size s, g_large s)) (sh_segs (snd z7)) = [(2048, 2097152, false)] /\
  map (fun b => (v_ptr b, v_len b, v_bytes b 3)) (fst z7) = [(6264, 50, None); (6584, 200, Some 7); (6392, 100, Some 0)] /\
  map (fun s => map (unit_set s) [64; 65; 66; 67; 73; 74]) (sh_segs (snd z6)) = [[true; false; false; true; true; false]] /\
  map (fun s => map (unit_set s) [64; 65; 66; 67; 73; 74]) (sh_segs (snd z7)) = [[true; true; true; true; true; false]] /\
  sh_mem (snd z7) 6587 = 7 /\ shm_available (snd z7) = Some 2092416.
Proof. split; [reflexivity|]. split; [exact zreach_7|]. vm_compute. repeat split. Qed.
(** A second large block of that length does not fit. *)
Example shm_full_ex : exists p', sreach 5000000 (fst z4) (snd z4) /\ slegal (fst z4) (SAlloc 1600000) /\ shm_step (snd z4) (SAlloc 1600000) = Some (p', None) /\ ~ unused (snd z4) 3703400 (1600000 + 4144 + 56).
Proof.
  exists (snd z4). split; [exact zreach_4|]. split; [reflexivity|]. split; [vm_compute; reflexivity|]. intros (_ & H & _). vm_compute in H. apply H. reflexivity.
Qed.

(** ** What does not hold *)
(** mln_alloc_shm_init accepts a capacity in which there is no room for an area: such a pool refuses every small request, and reports 2 MB as
    available. *)
Theorem shm_first_refuted : ~ (forall cap p, cap < 2 ^ 62 -> sreach cap [] p -> exists p' q, shm_step p (SAlloc 1) = Some (p', Some q)).
Proof.
  intros H. destruct (H 2098176 (mkShm 2098176 [] (fun _ => None) (fun _ => 0)) eq_refl) as (p' & q & E); [apply (sreach_new _ (fun _ => 0)); reflexivity|]. vm_compute in E. discriminate.
Qed.
Print Assumptions shm_first_refuted.
Theorem shm_available_refuted : ~ (forall cap l p n, cap < 2 ^ 62 -> sreach cap l p -> shm_available p = Some n -> 0 < n -> exists p' q, shm_step p (SAlloc 0) = Some (p', Some q)).
Proof.
  intros H. destruct (H 2098176 [] (mkShm 2098176 [] (fun _ => None) (fun _ => 0)) 2097152 eq_refl) as (p' & q & E); [apply (sreach_new _ (fun _ => 0)); reflexivity|vm_compute; reflexivity|reflexivity|]. vm_compute in E. discriminate.
Qed.
Print Assumptions shm_available_refuted.
(** With a large block in the pool, mln_alloc_available_capacity counts the bits of a bitmap that was never written. *)
Theorem shm_available_defined_refuted : ~ (forall cap l p, cap < 2 ^ 62 -> sreach cap l p -> shm_available p <> None).
Proof. intros H. apply (H 5000000 _ _ eq_refl zreach_4). vm_compute. reflexivity. Qed.
Print Assumptions shm_available_defined_refuted.
(** Behind a large block of odd length, blocks are not aligned. *)
Theorem shm_aligned_refuted : ~ (forall cap l p b, cap < 2 ^ 62 -> sreach cap l p -> In b l -> v_ptr b mod 8 = 0).
Proof.
  intros H. set (y1 := srun1 z0 (SAlloc 1600001)). set (y2 := srun1 y1 (SAlloc 10)).
  assert (R1 : sreach 5000000 (fst y1) (snd y1)) by (apply (sreach_run1 _ z0); [apply (sreach_new _ (fun _ => 0)); reflexivity|reflexivity|vm_compute; reflexivity]).
  assert (R2 : sreach 5000000 (fst y2) (snd y2)) by (apply (sreach_run1 _ y1); [exact R1|reflexivity|vm_compute; reflexivity]).
  assert (Hb : In (mkSl 1610465 10 10 (fun _ => None)) (fst y2)) by (vm_compute; left; reflexivity). specialize (H 5000000 _ _ _ eq_refl R2 Hb). vm_compute in H. discriminate.
Qed.
Print Assumptions shm_aligned_refuted.
(** A request that leaves no room for the headers below 2^64 is granted with an empty area. *)
Theorem shm_huge_refuted : ~ (forall cap f p size p' q, cap < 2 ^ 62 -> shm_init cap f = Some p -> size < 2 ^ 64 -> shm_step p (SAlloc size) = Some (p', Some q) -> q + size <= cap).
Proof.
  intros H. destruct (shm_step (snd z0) (SAlloc (2 ^ 64 - 4200))) as [[p' [q|]]|] eqn:E; [|vm_compute in E; discriminate|vm_compute in E; discriminate].
  specialize (H 5000000 (fun _ => 0) (snd z0) (2 ^ 64 - 4200) p' q eq_refl eq_refl eq_refl E). assert (Eq : option_map snd (shm_step (snd z0) (SAlloc (2 ^ 64 - 4200))) = Some (Some 6248)) by (vm_compute; reflexivity).
  rewrite E in Eq. cbn [option_map snd] in Eq. injection Eq as ->. vm_compute in H. apply H. reflexivity.
Qed.
Print Assumptions shm_huge_refuted.

Require Import List Arith NArith Lia Bool Permutation.
Require Import ZifyBool ZifyNat ZifyN.
Require Import Verif.Base Verif.Rc4Model Verif.Rc4Spec.
Import ListNotations.
Open Scope N_scope.

(** [s] is the table of [f]. *)
Definition tbl (s : list N) (f : N -> N) : Prop :=
  length s = 256%nat /\ (forall i, i < 256 -> rd s i = Some (f i)) /\ (forall i, i < 256 -> f i < 256).

Lemma swap_ok s f i j : tbl s f -> i < 256 -> j < 256 ->
  exists s', swap s i j = Some s' /\ tbl s' (fswap f i j).
Proof.
  intros (Hl & Hr & Hb) Hi Hj. unfold swap. rewrite (Hr i Hi), (Hr j Hj). cbn [obind].
  unfold wr, store. rewrite Hl.
  destruct (Nat.ltb_spec (N.to_nat i) 256); [|lia]. cbn [obind].
  rewrite upd_length, Hl. destruct (Nat.ltb_spec (N.to_nat j) 256); [|lia].
  eexists; split; [reflexivity|]. split; [rewrite !upd_length; auto|]. split.
  - intros x Hx. unfold rd, fswap. rewrite nth_error_upd, upd_length, Hl.
    destruct (Nat.eqb_spec (N.to_nat j) (N.to_nat x)).
    + assert (j = x) by lia; subst x.
      destruct (Nat.ltb_spec (N.to_nat j) 256); [|lia].
      destruct (N.eqb_spec j i); subst; auto. rewrite N.eqb_refl. auto.
    + rewrite nth_error_upd, Hl. destruct (Nat.eqb_spec (N.to_nat i) (N.to_nat x)).
      * assert (i = x) by lia; subst x. rewrite N.eqb_refl.
        destruct (Nat.ltb_spec (N.to_nat i) 256); [auto|lia].
      * destruct (N.eqb_spec x i); [lia|]. destruct (N.eqb_spec x j); [lia|].
        apply Hr; auto.
  - intros x Hx. unfold fswap. destruct (x =? i), (x =? j); auto.
Qed.

Lemma ksa_ok key : bytes key -> (length key <> 0)%nat ->
  forall is, Forall (fun i => i < 256) is -> forall s f j, tbl s f -> j < 256 ->
  exists s', ksa is key s j = Some s' /\ tbl s' (spec_ksa is key f j).
Proof.
  intros Hk Hl. induction is as [|i t IH]; intros Hi s f j Ht Hj; cbn [ksa spec_ksa]; [eauto|].
  inversion Hi as [|? ? Hi0 Hi1]; subst.
  rewrite (proj1 (proj2 Ht) i Hi0). cbn [obind].
  unfold rd at 1. rewrite (nth_error_nth' key 0) by lia. cbn [obind].
  set (j' := (j + f i + _) mod 256).
  destruct (swap_ok s f i j' Ht Hi0 ltac:(unfold j'; lia)) as (s' & E & Ht'). rewrite E. cbn [obind].
  apply IH; auto. unfold j'; lia.
Qed.

Lemma idx_tbl : tbl idx256 (fun x => x).
Proof.
  split; [reflexivity|]. split; auto.
  intros i Hi. unfold rd, idx256.
  assert (Hs : forall n k, (k < n)%nat -> nth_error (map N.of_nat (seq 0 n)) k = Some (N.of_nat k)).
  { intros n k Hk. rewrite nth_error_map, (nth_error_nth' (seq 0 n) 0%nat) by (rewrite seq_length; lia).
    rewrite seq_nth by lia. reflexivity. }
  rewrite Hs by lia. f_equal. lia.
Qed.

Lemma idx_lt : Forall (fun i => i < 256) idx256.
Proof.
  unfold idx256. apply Forall_map. apply Forall_forall. intros x Hx. apply in_seq in Hx. lia.
Qed.

Lemma rc4_init_ok key : bytes key -> key <> [] ->
  exists s, rc4_init key = Some s /\ tbl s (spec_table key).
Proof.
  intros Hk Hn. unfold rc4_init. destruct (Nat.eqb_spec (length key) 0) as [E|E].
  - destruct key; [congruence|discriminate].
  - exact (ksa_ok key Hk E idx256 idx_lt idx256 (fun x => x) 0 idx_tbl eq_refl).
Qed.

Lemma loop_ok data : forall s f i j, tbl s f -> j < 256 ->
  rc4_loop s i j data = Some (xor_lists data (spec_stream (length data) f i j)).
Proof.
  induction data as [|d t IH]; intros s f i j Ht Hj; cbn [rc4_loop length spec_stream xor_lists]; auto.
  set (i' := (i + 1) mod 256). assert (Hi' : i' < 256) by (unfold i'; lia).
  rewrite (proj1 (proj2 Ht) i' Hi'). cbn [obind].
  set (j' := (j + f i') mod 256). assert (Hj' : j' < 256) by (unfold j'; lia).
  destruct (swap_ok s f i' j' Ht Hi' Hj') as (s' & E & Ht'). rewrite E. cbn [obind].
  rewrite (proj1 (proj2 Ht') i' Hi'), (proj1 (proj2 Ht') j' Hj'). cbn [obind].
  rewrite (proj1 (proj2 Ht')) by lia. cbn [obind].
  rewrite (IH s' (fswap f i' j') i' j' Ht' Hj'). reflexivity.
Qed.

Lemma xor_involutive a : forall k, (length a <= length k)%nat -> xor_lists (xor_lists a k) k = a.
Proof.
  induction a as [|x a IH]; intros [|y k] H; cbn in *; auto; try lia.
  rewrite IH by lia. f_equal. rewrite N.lxor_assoc, N.lxor_nilpotent, N.lxor_0_r. reflexivity.
Qed.

Lemma stream_length n : forall f i j, length (spec_stream n f i j) = n.
Proof. induction n; intros; cbn [spec_stream length]; auto. Qed.

Lemma xor_length a : forall k, (length a <= length k)%nat -> length (xor_lists a k) = length a.
Proof. induction a as [|x a IH]; intros [|y k] H; cbn in *; auto; try lia. rewrite IH; lia. Qed.

Lemma rc4_matches key data : bytes key -> key <> [] ->
  exists s, rc4_init key = Some s /\ rc4_calc s data = Some (rc4_spec key data).
Proof.
  intros Hk Hn. destruct (rc4_init_ok key Hk Hn) as (s & E & Ht). exists s; split; auto.
  unfold rc4_calc. rewrite (loop_ok data s _ 0 0 Ht) by lia. reflexivity.
Qed.

Lemma rc4_round key data : bytes key -> key <> [] ->
  exists s c, rc4_init key = Some s /\ rc4_calc s data = Some c /\ length c = length data /\ rc4_calc s c = Some data.
Proof.
  intros Hk Hn. destruct (rc4_init_ok key Hk Hn) as (s & E & Ht).
  exists s, (rc4_spec key data). repeat split; auto.
  - unfold rc4_calc. rewrite (loop_ok data s _ 0 0 Ht) by lia. reflexivity.
  - unfold rc4_spec. rewrite xor_length; auto. rewrite stream_length; auto.
  - unfold rc4_calc. rewrite (loop_ok _ s _ 0 0 Ht) by lia. unfold rc4_spec.
    rewrite xor_length by (rewrite stream_length; auto).
    rewrite xor_involutive; auto. rewrite stream_length; auto.
Qed.

(** The table stays a permutation of 0..255. *)
Lemma upd_swap_perm (s : list N) i j vi vj : nth_error s i = Some vi -> nth_error s j = Some vj ->
  Permutation (upd (upd s i vj) j vi) s.
Proof.
  revert i j. induction s as [|h t IH]; intros i j Hi Hj; [destruct i; discriminate|].
  destruct i as [|i], j as [|j]; cbn in *.
  - injection Hi as ->. reflexivity.
  - injection Hi as ->. clear IH. revert j Hj. induction t as [|h t IH]; intros [|j] Hj; cbn in *; try discriminate.
    + injection Hj as ->. constructor.
    + transitivity (h :: vj :: upd t j vi); [constructor|].
      transitivity (h :: vi :: t); [constructor; apply IH; auto|constructor].
  - injection Hj as ->. clear IH. revert i Hi. induction t as [|h t IH]; intros [|i] Hi; cbn in *; try discriminate.
    + injection Hi as ->. constructor.
    + transitivity (h :: vi :: upd t i vj); [constructor|].
      transitivity (h :: vj :: t); [constructor; apply IH; auto|constructor].
  - constructor. apply IH; auto.
Qed.

Lemma swap_perm s i j s' : swap s i j = Some s' -> Permutation s' s.
Proof.
  unfold swap, rd, wr, store. intros H.
  destruct (nth_error s (N.to_nat i)) as [vi|] eqn:Ei; [|discriminate]. cbn [obind] in H.
  destruct (nth_error s (N.to_nat j)) as [vj|] eqn:Ej; [|discriminate]. cbn [obind] in H.
  destruct (N.to_nat i <? length s)%nat; [|discriminate]. cbn [obind] in H.
  destruct (N.to_nat j <? _)%nat; [|discriminate]. injection H as <-.
  apply upd_swap_perm; auto.
Qed.

Lemma ksa_perm key is : forall s j s', ksa is key s j = Some s' -> Permutation s' s.
Proof.
  induction is as [|i t IH]; intros s j s' H; cbn [ksa] in H.
  - injection H as ->. reflexivity.
  - destruct (rd s i); [|discriminate]. cbn [obind] in H.
    destruct (rd key _); [|discriminate]. cbn [obind] in H.
    destruct (swap s i _) as [s1|] eqn:E; [|discriminate]. cbn [obind] in H.
    etransitivity; [eapply IH; eauto|]. eapply swap_perm; eauto.
Qed.

Lemma rc4_init_perm key s : rc4_init key = Some s -> Permutation s (map N.of_nat (seq 0 256)).
Proof.
  unfold rc4_init. destruct (length key =? 0)%nat; [discriminate|]. apply ksa_perm.
Qed.

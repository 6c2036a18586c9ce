(** Lemmas for AllocProps.v. *)
Require Import List Arith NArith Bool Lia Permutation.
Require Import ZifyBool ZifyNat ZifyN.
Require Import Verif.Base Verif.AllocModel Verif.AllocSpec.
Import ListNotations.
Open Scope N_scope.

(** ** Size classes *)
Definition class_list : list N := [16; 24; 32; 48; 64; 96; 128; 192; 256; 384; 512; 768; 1024; 1536; 2048; 3072; 4096; 6144; 8192; 12288; 16384; 24576; 32768; 49152; 65536; 98304; 131072; 196608; 262144; 393216; 524288; 786432; 1048576; 1572864; 2097152].
Lemma class_list_ok : map class_size (seq 0 35) = class_list.
Proof. vm_compute. reflexivity. Qed.
Lemma class_nth i : (i < 35)%nat -> class_size i = nth i class_list 0.
Proof.
  intros H. rewrite <- class_list_ok. rewrite (nth_indep _ 0 (class_size 0)) by (rewrite map_length, seq_length; exact H).
  rewrite map_nth, seq_nth by exact H. reflexivity.
Qed.
Lemma class_lt i j : (i < j)%nat -> (j < 35)%nat -> class_size i < class_size j.
Proof.
  intros Hij Hj. rewrite !class_nth by lia.
  assert (H : forallb (fun i => nth i class_list 0 <? nth (S i) class_list 0) (seq 0 34) = true) by reflexivity.
  rewrite forallb_forall in H. induction Hij as [|j Hij IH].
  - apply N.ltb_lt. apply H. apply in_seq. lia.
  - transitivity (nth j class_list 0); [apply IH; lia|]. apply N.ltb_lt. apply H. apply in_seq. lia.
Qed.
Lemma class_le i j : (i <= j)%nat -> (j < 35)%nat -> class_size i <= class_size j.
Proof. intros H Hj. destruct (Nat.eq_dec i j) as [->|]; [lia|]. apply N.lt_le_incl, class_lt; lia. Qed.
Lemma class_pow k : (4 <= k <= 21)%nat -> class_size (2 * (k - 4)) = 2 ^ N.of_nat k.
Proof.
  intros H. rewrite class_nth by lia.
  assert (E : forallb (fun k => nth (2 * (k - 4)) class_list 0 =? 2 ^ N.of_nat k) (seq 4 18) = true) by reflexivity.
  rewrite forallb_forall in E. apply N.eqb_eq, E, in_seq. lia.
Qed.
Lemma class_of_ok size i : class_of size = Some i -> (i < 35)%nat /\ size <= class_size i /\ forall j, (j < 35)%nat -> size <= class_size j -> (i <= j)%nat.
Proof.
  unfold class_of. change (class_size 34) with 2097152. change (class_size 0) with 16.
  destruct (N.ltb_spec 2097152 size) as [|Hs]; [discriminate|]. destruct (N.leb_spec size 16) as [H0|H0].
  - intros E. injection E as <-. split; [lia|]. split; [change (class_size 0) with 16; lia|intros; lia].
  - cbv zeta. pose proof (N.log2_spec size ltac:(lia)) as [Ha Hb].
    assert (H4 : 4 <= N.log2 size). { change 4 with (N.log2 16). apply N.log2_le_mono. lia. }
    assert (H21 : N.log2 size <= 21). { change 21 with (N.log2 2097152). apply N.log2_le_mono. lia. }
    set (k := N.to_nat (N.log2 size)) in *. assert (Ek : N.log2 size = N.of_nat k) by lia. rewrite Ek in *.
    rewrite <- class_pow in Ha by lia. replace ((k - 4) * 2)%nat with (2 * (k - 4))%nat by lia.
    assert (Hup : (k < 21)%nat -> size < class_size (2 * (k - 4) + 2)).
    { intros Hk. replace (2 * (k - 4) + 2)%nat with (2 * (S k - 4))%nat by lia. rewrite class_pow by lia. replace (N.of_nat (S k)) with (N.succ (N.of_nat k)) by lia. exact Hb. }
    assert (Htop : k = 21%nat -> size <= class_size (2 * (k - 4))).
    { intros ->. change (class_size (2 * (21 - 4))) with 2097152. exact Hs. }
    assert (Hmin : forall i, (i < 35)%nat -> (forall j, (j < i)%nat -> class_size j < size) -> forall j, (j < 35)%nat -> size <= class_size j -> (i <= j)%nat).
    { intros i' _ Hlt j Hj Hsz. destruct (Nat.le_gt_cases i' j) as [|C]; [assumption|]. specialize (Hlt j C). lia. }
    assert (Hlow : forall j, (j < 2 * (k - 4))%nat -> class_size j < size). { intros j Hj. pose proof (class_lt j (2 * (k - 4)) Hj ltac:(lia)). lia. }
    destruct (N.leb_spec size (class_size (2 * (k - 4)))) as [H1|H1].
    + intros E. assert (Ei : i = (2 * (k - 4))%nat) by (injection E; lia). subst i. split; [lia|]. split; [exact H1|]. apply Hmin; [lia|exact Hlow].
    + assert (Hk : (k < 21)%nat) by (destruct (Nat.eq_dec k 21) as [e|]; [specialize (Htop e); lia|lia]).
      destruct (N.leb_spec size (class_size (2 * (k - 4) + 1))) as [H2|H2].
      * intros E. assert (Ei : i = (2 * (k - 4) + 1)%nat) by (injection E; lia). subst i. split; [lia|]. split; [exact H2|]. apply Hmin; [lia|].
        intros j Hj. destruct (Nat.eq_dec j (2 * (k - 4))) as [->|]; [exact H1|apply Hlow; lia].
      * intros E. assert (Ei : i = (2 * (k - 4) + 2)%nat) by (injection E; lia). subst i. specialize (Hup Hk). split; [lia|]. split; [lia|]. apply Hmin; [lia|].
        intros j Hj. destruct (Nat.eq_dec j (2 * (k - 4))) as [->|]; [exact H1|]. destruct (Nat.eq_dec j (2 * (k - 4) + 1)) as [->|]; [exact H2|apply Hlow; lia].
Qed.
Lemma class_of_none size : class_of size = None <-> 2 ^ 21 < size.
Proof.
  unfold class_of. change (class_size 34) with (2 ^ 21). destruct (N.ltb_spec (2 ^ 21) size) as [H|H]; [split; auto|]. split; [|intros; exfalso; lia].
  destruct (size <=? class_size 0); [discriminate|]. cbv zeta. destruct (size <=? _); [discriminate|]. destruct (size <=? _); discriminate.
Qed.

(** ** Sizes of blocks and chunks *)
Lemma sizes i : (i < 35)%nat -> 16 <= class_size i /\ class_size i <= 2 ^ 21 /\ class_size i mod 8 = 0 /\ blk_step i = 56 + class_size i /\ chunk_size i = 88 + 4 * (56 + class_size i).
Proof.
  intros H. assert (E : forallb (fun i => (16 <=? class_size i) && (class_size i <=? 2 ^ 21) && (class_size i mod 8 =? 0) && (blk_step i =? 56 + class_size i) && (chunk_size i =? 88 + 4 * (56 + class_size i))) (seq 0 35) = true) by (vm_compute; reflexivity).
  rewrite forallb_forall in E. specialize (E i (proj2 (in_seq 35 0 i) ltac:(lia))). rewrite !andb_true_iff, !N.eqb_eq, !N.leb_le in E. intuition.
Qed.
Lemma align4_ok x : x + 3 < 2 ^ 64 -> x <= align4 x <= x + 3 /\ align4 x mod 4 = 0.
Proof. intros H. unfold align4. rewrite N.shiftl_mul_pow2, N.shiftr_div_pow2, N.mod_small by exact H. change (2 ^ 2) with 4. clear. lia. Qed.
Lemma blocks_in b c i : (i < 35)%nat -> (In b (blocks c i) <-> exists n, n < 4 /\ b = c + 88 + n * (56 + class_size i)).
Proof.
  intros Hi. destruct (sizes i Hi) as (_ & _ & _ & Es & _). unfold blocks. rewrite in_map_iff. change chunk_hdr with 88. change blk_num with 4%nat. rewrite Es. split.
  - intros (n & <- & Hn). apply in_seq in Hn. exists (N.of_nat n). split; [lia|reflexivity].
  - intros (n & Hn & ->). exists (N.to_nat n). rewrite N2Nat.id. split; [reflexivity|]. apply in_seq. lia.
Qed.
Lemma blocks_range b c i : (i < 35)%nat -> In b (blocks c i) -> c + 88 <= b /\ b + 56 + class_size i <= c + chunk_size i.
Proof.
  intros Hi H. destruct (sizes i Hi) as (_ & _ & _ & _ & ->). apply blocks_in in H; [|exact Hi]. destruct H as (n & Hn & ->).
  assert (H : n = 0 \/ n = 1 \/ n = 2 \/ n = 3) by lia. revert H. generalize (class_size i). clear. intros s. lia.
Qed.
Lemma blocks_apart b b' c i : (i < 35)%nat -> In b (blocks c i) -> In b' (blocks c i) -> b <> b' -> apart b (56 + class_size i) b' (56 + class_size i).
Proof.
  intros Hi H H'. apply blocks_in in H; [|exact Hi]. apply blocks_in in H'; [|exact Hi]. destruct H as (n & Hn & ->), H' as (n' & Hn' & ->).
  unfold apart. generalize (56 + class_size i). intros s Hne. assert (n <> n') by congruence.
  assert (Hc : n + 1 <= n' \/ n' + 1 <= n) by lia. destruct Hc as [Hc|Hc]; [left|right].
  - assert ((n + 1) * s <= n' * s) by (apply N.mul_le_mono_r; exact Hc). lia.
  - assert ((n' + 1) * s <= n * s) by (apply N.mul_le_mono_r; exact Hc). lia.
Qed.
Lemma blocks_nodup c i : (i < 35)%nat -> NoDup (blocks c i).
Proof.
  intros Hi. destruct (sizes i Hi) as (Hs & _ & _ & E & _). unfold blocks. change blk_num with 4%nat. cbn [seq map].
  rewrite E. change (N.of_nat 0) with 0. change (N.of_nat 1) with 1. change (N.of_nat 2) with 2. change (N.of_nat 3) with 3.
  clear E. generalize dependent (class_size i). intros s Hs. repeat constructor; cbn [In]; intuition lia.
Qed.

(** ** Chains *)
Lemma chain_del_in x l : In x l -> exists l', chain_del x l = Some l'.
Proof.
  induction l as [|y t IH]; intros H; [contradiction|]. cbn [chain_del]. destruct (N.eqb_spec y x) as [->|Hn]; [eauto|].
  destruct H as [H|H]; [congruence|]. destruct (IH H) as (l' & ->). cbn [obind]. eauto.
Qed.
Lemma chain_del_perm x l l' : chain_del x l = Some l' -> Permutation l (x :: l').
Proof.
  revert l'. induction l as [|y t IH]; intros l' H; [discriminate|]. cbn [chain_del] in H. destruct (N.eqb_spec y x) as [->|Hn]; [injection H as <-; reflexivity|].
  destruct (chain_del x t) as [t'|]; [|discriminate]. cbn [obind] in H. injection H as <-. rewrite (IH t' eq_refl). apply perm_swap.
Qed.
Lemma chain_del_all_perm xs : forall l l', chain_del_all xs l = Some l' -> Permutation l (xs ++ l').
Proof.
  induction xs as [|x xs IH]; intros l l' H; cbn [chain_del_all] in H; [injection H as <-; reflexivity|].
  destruct (chain_del x l) as [l1|] eqn:E; [|discriminate]. cbn [obind] in H. rewrite (chain_del_perm _ _ _ E). cbn [app]. apply perm_skip, IH, H.
Qed.
Lemma chain_del_all_in xs : forall l, NoDup xs -> (forall x, In x xs -> In x l) -> exists l', chain_del_all xs l = Some l'.
Proof.
  induction xs as [|x xs IH]; intros l Hn H; cbn [chain_del_all]; [eauto|]. inversion Hn as [|? ? Hx Hn']; subst.
  destruct (chain_del_in x l (H x (or_introl eq_refl))) as (l1 & E). rewrite E. cbn [obind]. apply IH; [exact Hn'|].
  intros y Hy. specialize (H y (or_intror Hy)). rewrite (chain_del_perm _ _ _ E) in H. destruct H as [<-|H]; [contradiction|exact H].
Qed.

Lemma set_same A (f : N -> option A) a x : set f a x a = x.
Proof. unfold set. rewrite N.eqb_refl. reflexivity. Qed.
Lemma set_other A (f : N -> option A) a x b : b <> a -> set f a x b = f b.
Proof. unfold set. intros H. destruct (N.eqb_spec b a); [contradiction|reflexivity]. Qed.

(** The number of elements of [l] that are in [u]. *)
Definition inb (u : list N) (x : N) : bool := existsb (N.eqb x) u.
Lemma inb_in u x : inb u x = true <-> In x u.
Proof. unfold inb. rewrite existsb_exists. split; [intros (y & Hy & E); apply N.eqb_eq in E; congruence|intros H; exists x; rewrite N.eqb_refl; auto]. Qed.
Definition uses (l u : list N) : N := N.of_nat (length (filter (inb u) l)).
Lemma uses_ext l u u' : (forall x, In x l -> (In x u <-> In x u')) -> uses l u = uses l u'.
Proof.
  intros H. unfold uses. f_equal. f_equal. apply filter_ext_in. intros x Hx. specialize (H x Hx). apply eq_true_iff_eq. rewrite !inb_in. exact H.
Qed.
Lemma uses_cons b l u : NoDup l -> In b l -> ~ In b u -> uses l (b :: u) = uses l u + 1.
Proof.
  intros Hn Hb Hu. apply in_split in Hb. destruct Hb as (l1 & l2 & ->). unfold uses. rewrite !filter_app, !app_length. cbn [filter].
  assert (E : inb (b :: u) b = true) by (apply inb_in; left; reflexivity). rewrite E.
  assert (E' : inb u b = false) by (apply not_true_is_false; rewrite inb_in; exact Hu). rewrite E'. cbn [length].
  apply NoDup_remove_2 in Hn. assert (Hext : forall l', ~ In b l' -> filter (inb (b :: u)) l' = filter (inb u) l').
  { intros l' Hl. apply filter_ext_in. intros x Hx. apply eq_true_iff_eq. rewrite !inb_in. cbn [In]. split; [|tauto]. intros [<-|H]; [contradiction|exact H]. }
  rewrite !Hext by (intros C; apply Hn, in_or_app; auto). lia.
Qed.
Lemma uses_zero l u : uses l u = 0 -> forall x, In x l -> ~ In x u.
Proof.
  unfold uses. intros H x Hx Hu. assert (E : In x (filter (inb u) l)) by (apply filter_In; split; [exact Hx|apply inb_in; exact Hu]).
  destruct (filter (inb u) l); [contradiction|cbn [length] in H; lia].
Qed.

Definition set_all {A} (f : N -> option A) (l : list N) (x : option A) : N -> option A := fold_left (fun f b => set f b x) l f.
Lemma set_all_in A l : forall (f : N -> option A) x b, In b l -> set_all f l x b = x.
Proof.
  unfold set_all. induction l as [|c l IH] using rev_ind; intros f x b H; [contradiction|]. rewrite fold_left_app. cbn [fold_left].
  destruct (N.eq_dec b c) as [->|Hn]; [apply set_same|]. rewrite set_other by exact Hn. apply IH. apply in_app_or in H. destruct H as [H|[H|[]]]; [exact H|congruence].
Qed.
Lemma set_all_out A l : forall (f : N -> option A) x b, ~ In b l -> set_all f l x b = f b.
Proof.
  unfold set_all. induction l as [|c l IH] using rev_ind; intros f x b H; [reflexivity|]. rewrite fold_left_app. cbn [fold_left].
  rewrite set_other; [apply IH; intros C; apply H, in_or_app; auto|]. intros ->. apply H, in_or_app. right. left. reflexivity.
Qed.
Lemma fold_set_blk l x : forall p, fold_left (fun p b => set_blk p b x) l p = mkPool (capacity p) (in_used p) (tbl p) (large p) (set_all (blks p) l x) (chs p) (mem p).
Proof. induction l as [|b l IH]; intros p; cbn [fold_left]; [destruct p; reflexivity|]. rewrite IH. reflexivity. Qed.

(** ** The invariant *)
Definition wf_chunk (p : pool) (c : N) (ch : chunk) : Prop :=
  match c_mgr ch with
  | Some i => (i < 35)%nat /\ c_blks ch = blocks c i /\ c_size ch = chunk_size i /\
      (forall m, nth_error (tbl p) i = Some m -> c_refer ch = uses (c_blks ch) (m_used m))
  | None => c_blks ch = [c + 88] /\ 2097296 < c_size ch
  end.
Record sinv (h : list (N * N)) (p : pool) : Prop := {
  s_len : length (tbl p) = 35%nat;
  s_ch : forall c ch, chs p c = Some ch -> wf_chunk p c ch;
  s_dup : forall i m, nth_error (tbl p) i = Some m -> NoDup (m_free m ++ m_used m) /\ NoDup (m_chunks m);
  s_in : forall i m, nth_error (tbl p) i = Some m ->
    (forall b, In b (m_free m ++ m_used m) <-> exists k ch, blks p b = Some k /\ chs p (b_chunk k) = Some ch /\ c_mgr ch = Some i) /\
    (forall c, In c (m_chunks m) <-> exists ch, chs p c = Some ch /\ c_mgr ch = Some i);
  s_large : NoDup (large p) /\ forall c, In c (large p) <-> exists ch, chs p c = Some ch /\ c_mgr ch = None;
  s_blk : forall b k, blks p b = Some k -> exists ch, chs p (b_chunk k) = Some ch /\ In b (c_blks ch) /\
    match c_mgr ch with Some i => b_large k = false /\ b_size k = class_size i | None => b_large k = true /\ b_size k = c_size ch - 144 end;
  s_own : forall c ch b, chs p c = Some ch -> In b (c_blks ch) -> exists k, blks p b = Some k /\ b_chunk k = c;
  s_once : NoDup (map fst h);
  s_held : forall c n, In (c, n) h <-> exists ch, chs p c = Some ch /\ c_size ch = n;
  s_range : forall c n, In (c, n) h -> 0 < c /\ c + n <= 2 ^ 64;
  s_apart : forall c n c' n', In (c, n) h -> In (c', n') h -> c <> c' -> apart c n c' n' }.

Definition used (p : pool) (b : N) : Prop := exists k ch, blks p b = Some k /\ chs p (b_chunk k) = Some ch /\
  match c_mgr ch with None => True | Some i => exists m, nth_error (tbl p) i = Some m /\ In b (m_used m) end.

Lemma mgr_at h p i : sinv h p -> (i < 35)%nat -> exists m, nth_error (tbl p) i = Some m.
Proof. intros H Hi. destruct (nth_error (tbl p) i) eqn:E; [eauto|]. apply nth_error_None in E. rewrite (s_len _ _ H) in E. lia. Qed.
Lemma mgr_lt h p i m : sinv h p -> nth_error (tbl p) i = Some m -> (i < 35)%nat.
Proof. intros H E. rewrite <- (s_len _ _ H). apply nth_error_Some. rewrite E. discriminate. Qed.

(** Where a block lies. *)
Lemma blk_place h p b k : sinv h p -> blks p b = Some k -> exists n, In (b_chunk k, n) h /\ b_chunk k + 88 <= b /\ b + 56 + b_size k <= b_chunk k + n.
Proof.
  intros H E. destruct (s_blk _ _ H _ _ E) as (ch & Ec & Hb & Hk). exists (c_size ch). split; [apply (s_held _ _ H); eauto|].
  pose proof (s_ch _ _ H _ _ Ec) as W. unfold wf_chunk in W. destruct (c_mgr ch) as [i|].
  - destruct W as (Hi & Eb & Es & _), Hk as [_ ->]. rewrite Eb in Hb. rewrite Es. apply blocks_range; assumption.
  - destruct W as (Eb & Hs), Hk as [_ ->]. rewrite Eb in Hb. destruct Hb as [<-|[]]. lia.
Qed.
(** Two blocks do not touch. *)
Lemma blk_apart h p b k b' k' : sinv h p -> blks p b = Some k -> blks p b' = Some k' -> b <> b' -> apart b (56 + b_size k) b' (56 + b_size k').
Proof.
  intros H E E' Hne. destruct (N.eq_dec (b_chunk k) (b_chunk k')) as [Ec|Nc].
  - destruct (s_blk _ _ H _ _ E) as (ch & Eh & Hb & Hk). destruct (s_blk _ _ H _ _ E') as (ch' & Eh' & Hb' & Hk').
    rewrite <- Ec, Eh in Eh'. injection Eh' as <-. pose proof (s_ch _ _ H _ _ Eh) as W. unfold wf_chunk in W. destruct (c_mgr ch) as [i|].
    + destruct W as (Hi & Eb & _), Hk as [_ ->], Hk' as [_ ->]. rewrite Eb in *. apply (blocks_apart _ _ (b_chunk k)); assumption.
    + destruct W as (Eb & _). rewrite Eb in *. destruct Hb as [<-|[]], Hb' as [<-|[]]. congruence.
  - destruct (blk_place _ _ _ _ H E) as (n & Hn & H1 & H2). destruct (blk_place _ _ _ _ H E') as (n' & Hn' & H1' & H2').
    pose proof (s_apart _ _ H _ _ _ _ Hn Hn' Nc) as A. unfold apart in *. clear - A H1 H2 H1' H2'. lia.
Qed.
Lemma fresh_none h p n a : sinv h p -> fresh h n a -> 0 < n -> chs p a = None.
Proof.
  intros H (_ & _ & F) Hn. destruct (chs p a) as [ch|] eqn:E; [|reflexivity]. exfalso.
  assert (Hi : In (a, c_size ch) h) by (apply (s_held _ _ H); eauto). pose proof (F _ _ Hi) as A.
  pose proof (s_ch _ _ H _ _ E) as W. unfold wf_chunk in W. assert (0 < c_size ch).
  { destruct (c_mgr ch) as [i|]; [destruct W as (Hi' & _ & -> & _); destruct (sizes i Hi') as (_ & _ & _ & _ & ->); lia|lia]. }
  unfold apart in A. clear - A Hn H0. lia.
Qed.
Lemma fresh_blk h p n a b : sinv h p -> fresh h n a -> a <= b -> b + 56 <= a + n -> blks p b = None.
Proof.
  intros H (_ & _ & F) H1 H2. destruct (blks p b) as [k|] eqn:E; [|reflexivity]. exfalso.
  destruct (blk_place _ _ _ _ H E) as (m & Hm & H3 & H4). pose proof (F _ _ Hm) as A. unfold apart in A. clear - A H1 H2 H3 H4. lia.
Qed.
Lemma fresh_key h n a : fresh h n a -> 0 < n -> (forall c m, In (c, m) h -> 0 < m) -> ~ In a (map fst h).
Proof.
  intros (_ & _ & F) Hn Hp H. apply in_map_iff in H. destruct H as ((c & m) & E & Hi). cbn in E. subst c. pose proof (F _ _ Hi) as A. specialize (Hp _ _ Hi).
  unfold apart in A. clear - A Hn Hp. lia.
Qed.
Lemma held_pos h p c n : sinv h p -> In (c, n) h -> 144 <= n.
Proof.
  intros H Hi. apply (s_held _ _ H) in Hi. destruct Hi as (ch & E & <-). pose proof (s_ch _ _ H _ _ E) as W. unfold wf_chunk in W.
  destruct (c_mgr ch) as [i|]; [destruct W as (Hi' & _ & -> & _); destruct (sizes i Hi') as (_ & _ & _ & _ & ->); lia|lia].
Qed.
Lemma apart_sym a n b m : apart a n b m -> apart b m a n.
Proof. unfold apart. tauto. Qed.
Lemma once_cons h p n a : sinv h p -> fresh h n a -> 144 <= n -> NoDup (map fst ((a, n) :: h)).
Proof.
  intros H F Hn. cbn [map fst]. constructor; [|exact (s_once _ _ H)]. apply (fresh_key h n); [exact F|lia|].
  intros c m Hi. pose proof (held_pos _ _ _ _ H Hi). lia.
Qed.
Lemma apart_cons h n a : fresh h n a -> (forall c n c' n', In (c, n) h -> In (c', n') h -> c <> c' -> apart c n c' n') ->
  forall c m c' m', In (c, m) ((a, n) :: h) -> In (c', m') ((a, n) :: h) -> c <> c' -> apart c m c' m'.
Proof.
  intros (_ & _ & F) H c m c' m' [E|Hi] [E'|Hi'] Hne.
  - congruence.
  - injection E as <- <-. apply F, Hi'.
  - injection E' as <- <-. apply apart_sym, F, Hi.
  - apply H; assumption.
Qed.

(** ** A block changes between free and used *)
Definition moved (p : pool) (i : nat) (m' : mgr) (k : blk) (ch : chunk) (r cnt : N) : pool :=
  set_ch (set_mgr p i m') (b_chunk k) (Some (mkCh r cnt (c_mgr ch) (c_blks ch) (c_size ch))).
Section Move.
Variables (h : list (N * N)) (p : pool) (i : nat) (m m' : mgr) (b : N) (k : blk) (ch : chunk) (r cnt : N).
Hypothesis Hp : sinv h p.
Hypothesis Hm : nth_error (tbl p) i = Some m.
Hypothesis Hc : m_chunks m' = m_chunks m.
Hypothesis Hperm : Permutation (m_free m' ++ m_used m') (m_free m ++ m_used m).
Hypothesis Hk : blks p b = Some k.
Hypothesis Hch : chs p (b_chunk k) = Some ch.
Hypothesis Hi : c_mgr ch = Some i.
Hypothesis Hr : r = uses (c_blks ch) (m_used m').
Hypothesis Hu : forall x, x <> b -> (In x (m_used m') <-> In x (m_used m)).
Let p' := moved p i m' k ch r cnt.

Lemma moved_chs c : chs p' c = if c =? b_chunk k then Some (mkCh r cnt (c_mgr ch) (c_blks ch) (c_size ch)) else chs p c.
Proof. reflexivity. Qed.
(** The chunks are the same but for two counters. *)
Lemma moved_same c (P : option nat -> list N -> N -> Prop) :
  (exists x, chs p' c = Some x /\ P (c_mgr x) (c_blks x) (c_size x)) <-> (exists x, chs p c = Some x /\ P (c_mgr x) (c_blks x) (c_size x)).
Proof.
  rewrite moved_chs. destruct (N.eqb_spec c (b_chunk k)) as [->|Hn]; [|reflexivity]. split.
  - intros (x & E & HP). injection E as <-. cbn [c_mgr c_blks c_size] in HP. eauto.
  - intros (x & E & HP). rewrite Hch in E. injection E as <-. eexists. split; [reflexivity|exact HP].
Qed.
Lemma moved_mgr j mj : nth_error (tbl p') j = Some mj -> exists mj', nth_error (tbl p) j = Some mj' /\ m_chunks mj = m_chunks mj' /\
  Permutation (m_free mj ++ m_used mj) (m_free mj' ++ m_used mj') /\ (forall x, x <> b -> (In x (m_used mj) <-> In x (m_used mj'))) /\ (j <> i -> mj = mj') /\ (j = i -> mj = m').
Proof.
  change (tbl p') with (upd (tbl p) i m'). rewrite nth_error_upd. destruct (Nat.eqb_spec i j) as [<-|Hn].
  - destruct (i <? length (tbl p))%nat; [|discriminate]. intros E. injection E as <-. exists m. repeat split; try assumption; try tauto; try (intros; apply Hu; assumption); congruence.
  - intros E. exists mj. repeat split; try assumption; try reflexivity; try tauto; congruence.
Qed.
Lemma moved_mgr' j mj' : nth_error (tbl p) j = Some mj' -> exists mj, nth_error (tbl p') j = Some mj /\ (forall x, x <> b -> (In x (m_used mj) <-> In x (m_used mj'))).
Proof.
  intros E. change (tbl p') with (upd (tbl p) i m'). rewrite nth_error_upd. destruct (Nat.eqb_spec i j) as [<-|Hn].
  - pose proof (mgr_lt _ _ _ _ Hp E) as Hl. rewrite (s_len _ _ Hp). destruct (Nat.ltb_spec i 35); [|lia]. rewrite Hm in E. injection E as <-. eauto.
  - exists mj'. split; [exact E|reflexivity].
Qed.
Lemma moved_inv : sinv h p'.
Proof.
  constructor.
  - change (tbl p') with (upd (tbl p) i m'). rewrite upd_length. exact (s_len _ _ Hp).
  - intros c x E. assert (W : exists y, chs p c = Some y /\ c_mgr x = c_mgr y /\ c_blks x = c_blks y /\ c_size x = c_size y).
    { rewrite moved_chs in E. destruct (N.eqb_spec c (b_chunk k)) as [->|Hn]; [injection E as <-; exists ch; auto|eauto]. }
    destruct W as (y & Ey & E1 & E2 & E3). pose proof (s_ch _ _ Hp _ _ Ey) as W. unfold wf_chunk in *. rewrite E1, E2, E3. destruct (c_mgr y) as [j|] eqn:Ej; [|exact W].
    destruct W as (Hj & Hb & Hs & Hr'). repeat split; try assumption. intros mj Emj. destruct (moved_mgr _ _ Emj) as (mj' & Emj' & _ & _ & Hx & Hne & Heq).
    rewrite moved_chs in E. destruct (N.eqb_spec c (b_chunk k)) as [->|Hn].
    + injection E as <-. cbn [c_refer]. rewrite Hch in Ey. injection Ey as <-. rewrite Hi in Ej. injection Ej as <-. rewrite (Heq eq_refl). exact Hr.
    + rewrite Ey in E. injection E as <-. rewrite (Hr' _ Emj'). apply uses_ext. intros z Hz. symmetry. apply Hx. intros ->.
      destruct (s_own _ _ Hp _ _ _ Ey Hz) as (k' & Ek' & <-). congruence.
  - intros j mj E. destruct (moved_mgr _ _ E) as (mj' & E' & Ec & Pm & _). destruct (s_dup _ _ Hp _ _ E') as [H1 H2]. split; [|rewrite Ec; exact H2].
    apply (Permutation_NoDup (Permutation_sym Pm) H1).
  - intros j mj E. destruct (moved_mgr _ _ E) as (mj' & E' & Ec & Pm & _). destruct (s_in _ _ Hp _ _ E') as [H1 H2]. split.
    + intros x. transitivity (In x (m_free mj' ++ m_used mj')); [split; apply Permutation_in; [exact Pm|symmetry; exact Pm]|]. rewrite H1. split.
      * intros (k' & ch' & Ek & Ech & Emg). destruct (proj2 (moved_same (b_chunk k') (fun g _ _ => g = Some j)) (ex_intro _ _ (conj Ech Emg))) as (y & Ey & Hy). eauto.
      * intros (k' & ch' & Ek & Ech & Emg). destruct (proj1 (moved_same (b_chunk k') (fun g _ _ => g = Some j)) (ex_intro _ _ (conj Ech Emg))) as (y & Ey & Hy). eauto.
    + intros c. rewrite Ec, H2. symmetry. apply (moved_same c (fun g _ _ => g = Some j)).
  - destruct (s_large _ _ Hp) as [H1 H2]. split; [exact H1|]. intros c. change (large p') with (large p). rewrite H2. symmetry. apply (moved_same c (fun g _ _ => g = None)).
  - intros x k' E. destruct (s_blk _ _ Hp _ _ E) as (y & Ey & H1 & H2).
    destruct (proj2 (moved_same (b_chunk k') (fun g l n => In x l /\ match g with Some i => b_large k' = false /\ b_size k' = class_size i | None => b_large k' = true /\ b_size k' = n - 144 end))
      (ex_intro _ y (conj Ey (conj H1 H2)))) as (z & Ez & H3 & H4). eauto.
  - intros c x z E Hz. destruct (proj1 (moved_same c (fun _ l _ => In z l)) (ex_intro _ x (conj E Hz))) as (y & Ey & Hy). exact (s_own _ _ Hp _ _ _ Ey Hy).
  - exact (s_once _ _ Hp).
  - intros c n. rewrite (s_held _ _ Hp). symmetry. apply (moved_same c (fun _ _ s => s = n)).
  - exact (s_range _ _ Hp).
  - exact (s_apart _ _ Hp).
Qed.
Lemma moved_used x : x <> b -> (used p' x <-> used p x).
Proof.
  intros Hx. unfold used. split; intros (k' & y & Ek & Ey & Hy).
  - destruct (proj1 (moved_same (b_chunk k') (fun g _ _ => match g with None => True | Some i => exists m, nth_error (tbl p') i = Some m /\ In x (m_used m) end)) (ex_intro _ y (conj Ey Hy))) as (z & Ez & Hz).
    exists k', z. repeat split; try assumption. destruct (c_mgr z); [|exact I]. destruct Hz as (mj & Emj & Hin). destruct (moved_mgr _ _ Emj) as (mj' & Emj' & _ & _ & Hxx & _).
    exists mj'. split; [exact Emj'|]. apply Hxx; assumption.
  - destruct (proj2 (moved_same (b_chunk k') (fun g _ _ => match g with None => True | Some i => exists m, nth_error (tbl p) i = Some m /\ In x (m_used m) end)) (ex_intro _ y (conj Ey Hy))) as (z & Ez & Hz).
    exists k', z. repeat split; try assumption. destruct (c_mgr z); [|exact I]. destruct Hz as (mj' & Emj' & Hin). destruct (moved_mgr' _ _ Emj') as (mj & Emj & Hxx).
    exists mj. split; [exact Emj|]. apply Hxx; assumption.
Qed.
Lemma moved_used_b : used p' b <-> In b (m_used m').
Proof.
  assert (Em : nth_error (tbl p') i = Some m').
  { change (tbl p') with (upd (tbl p) i m'). apply nth_error_upd_eq. rewrite (s_len _ _ Hp). exact (mgr_lt _ _ _ _ Hp Hm). }
  unfold used. split.
  - intros (k' & y & Ek & Ey & Hy). change (blks p' b) with (blks p b) in Ek. rewrite Hk in Ek. injection Ek as <-. rewrite moved_chs, N.eqb_refl in Ey. injection Ey as <-.
    cbn [c_mgr] in Hy. rewrite Hi in Hy. destruct Hy as (mj & Emj & H). rewrite Em in Emj. injection Emj as <-. exact H.
  - intros H. exists k. eexists. split; [exact Hk|]. rewrite moved_chs, N.eqb_refl. split; [reflexivity|]. cbn [c_mgr]. rewrite Hi. eauto.
Qed.
End Move.

Lemma used_exists p b : used p b -> exists k, blks p b = Some k.
Proof. intros (k & ch & E & _). eauto. Qed.

Lemma take_ok h p i m o : sinv h p -> nth_error (tbl p) i = Some m -> m_free m <> [] ->
  exists p' b k, take p i o = Some (p', o (Some (b + 56))) /\ sinv h p' /\ blks p' = blks p /\ mem p' = mem p /\ capacity p' = capacity p /\ in_used p' = in_used p /\
    blks p b = Some k /\ b_size k = class_size i /\ ~ used p b /\ (forall x, used p' x <-> x = b \/ used p x).
Proof.
  intros Hp Hm Hf. unfold take. rewrite Hm. cbn [obind]. destruct (rev (m_free m)) as [|b t] eqn:Er.
  { exfalso. apply Hf. rewrite <- (rev_involutive (m_free m)), Er. reflexivity. }
  assert (Ef : m_free m = rev t ++ [b]) by (rewrite <- (rev_involutive (m_free m)), Er; reflexivity).
  assert (Hin : In b (m_free m)) by (rewrite Ef; apply in_or_app; right; left; reflexivity).
  destruct (chain_del_in _ _ Hin) as (free & Ed). rewrite Ed. cbn [obind]. pose proof (chain_del_perm _ _ _ Ed) as Pd.
  destruct (s_in _ _ Hp _ _ Hm) as [Hin1 _]. destruct (proj1 (Hin1 b) (in_or_app _ _ _ (or_introl Hin))) as (k & ch & Ek & Ech & Emg).
  change (blks (set_mgr p i _) b) with (blks p b). rewrite Ek. cbn [obind]. change (chs (set_mgr p i _) (b_chunk k)) with (chs p (b_chunk k)). rewrite Ech. cbn [obind]. cbv zeta.
  set (m' := mkMgr free (m_used m ++ [b]) (m_chunks m)). destruct (s_dup _ _ Hp _ _ Hm) as [Hd _].
  assert (Hnu : ~ In b (m_used m)). { intros C. rewrite Pd in Hd. cbn [app] in Hd. inversion Hd as [|? ? Hx _]; subst. apply Hx, in_or_app. right. exact C. }
  pose proof (s_ch _ _ Hp _ _ Ech) as W. unfold wf_chunk in W. rewrite Emg in W. destruct W as (Hi & Eb & _ & Hr).
  destruct (s_blk _ _ Hp _ _ Ek) as (ch' & Ech' & Hbl & Hbs). rewrite Ech in Ech'. injection Ech' as <-. rewrite Emg in Hbs.
  assert (Hperm : Permutation (m_free m' ++ m_used m') (m_free m ++ m_used m)).
  { cbn [m_free m_used m']. rewrite Pd. rewrite app_assoc. rewrite (Permutation_app_comm (free ++ m_used m) [b]). reflexivity. }
  assert (Hu : forall x, x <> b -> (In x (m_used m') <-> In x (m_used m))).
  { intros x Hx. cbn [m_used m']. rewrite in_app_iff. cbn [In]. split; [intros [H|[H|[]]]; [exact H|congruence]|auto]. }
  assert (Hrr : c_refer ch + 1 = uses (c_blks ch) (m_used m')).
  { rewrite (uses_ext (c_blks ch) (m_used m') (b :: m_used m)); [|intros x _; cbn [m_used m' In]; rewrite in_app_iff; cbn [In]; tauto].
    rewrite uses_cons; [rewrite (Hr _ Hm); reflexivity|rewrite Eb; apply blocks_nodup; exact Hi|exact Hbl|exact Hnu]. }
  fold (moved p i m' k ch (c_refer ch + 1) (c_count ch)). exists (moved p i m' k ch (c_refer ch + 1) (c_count ch)), b, k.
  change (set_ch (set_mgr p i m') (b_chunk k) (Some (mkCh (c_refer ch + 1) (c_count ch) (c_mgr ch) (c_blks ch) (c_size ch)))) with (moved p i m' k ch (c_refer ch + 1) (c_count ch)).
  split; [reflexivity|]. split; [apply (moved_inv h p i m m' b k ch); auto|].
  repeat (split; [reflexivity|]). split; [exact Ek|]. split; [tauto|]. split.
  - intros (k' & y & Ek' & Ey & Hy). rewrite Ek in Ek'. injection Ek' as <-. rewrite Ech in Ey. injection Ey as <-. rewrite Emg in Hy. destruct Hy as (mj & Emj & H). rewrite Hm in Emj. injection Emj as <-. contradiction.
  - intros x. destruct (N.eq_dec x b) as [->|Hx].
    + split; [auto|]. intros _. apply (moved_used_b h p i m m' b k ch); auto. cbn [m_used m']. apply in_or_app. right. left. reflexivity.
    + rewrite (moved_used h p i m m' b k ch) by auto. split; [auto|]. intros [C|C]; [contradiction|exact C].
Qed.

(** ** A chunk is added *)
Definition at_mgr (g : option nat) (j : nat) : bool := match g with Some i => Nat.eqb i j | None => false end.
Lemma at_mgr_true g j : at_mgr g j = true <-> g = Some j.
Proof. destruct g as [i|]; cbn [at_mgr]; [rewrite Nat.eqb_eq; split; congruence|split; discriminate]. Qed.
Lemma nodup_app (l1 l2 : list N) : NoDup l1 -> NoDup l2 -> (forall x, In x l1 -> ~ In x l2) -> NoDup (l1 ++ l2).
Proof.
  induction l1 as [|x l1 IH]; intros H1 H2 H; [exact H2|]. inversion H1; subst. cbn [app]. constructor; [|apply IH; [assumption|exact H2|intros y Hy; apply H; right; exact Hy]].
  rewrite in_app_iff. intros [C|C]; [contradiction|]. apply (H x (or_introl eq_refl) C).
Qed.
Lemma nodup_disjoint (l1 l2 : list N) : NoDup (l1 ++ l2) -> forall x, In x l1 -> ~ In x l2.
Proof.
  induction l1 as [|y l1 IH]; intros H x Hx; [contradiction|]. cbn [app] in H. inversion H as [|? ? Hn H']; subst. destruct Hx as [<-|Hx]; [|apply IH; assumption].
  intros C. apply Hn, in_or_app. right. exact C.
Qed.
Lemma NoDup_app_rem (l1 l2 : list N) : NoDup (l1 ++ l2) -> NoDup l1 /\ NoDup l2.
Proof.
  induction l1 as [|y l1 IH]; intros H; [split; [constructor|exact H]|]. cbn [app] in H. inversion H as [|? ? Hn H']; subst. destruct (IH H') as [H1 H2]. split; [|exact H2].
  constructor; [|exact H1]. intros C. apply Hn, in_or_app. left. exact C.
Qed.
Section Add.
Variables (h : list (N * N)) (p p' : pool) (a : N) (ch : chunk) (kb : blk).
Hypothesis Hp : sinv h p.
Hypothesis Ech : chs p' = set (chs p) a (Some ch).
Hypothesis Ebl : blks p' = set_all (blks p) (c_blks ch) (Some kb).
Hypothesis Ekc : b_chunk kb = a.
Hypothesis Elen : length (tbl p') = 35%nat.
Hypothesis Emgr : forall j mj', nth_error (tbl p') j = Some mj' -> exists mj, nth_error (tbl p) j = Some mj /\ m_used mj' = m_used mj /\
  m_free mj' = m_free mj ++ (if at_mgr (c_mgr ch) j then c_blks ch else []) /\ m_chunks mj' = m_chunks mj ++ (if at_mgr (c_mgr ch) j then [a] else []).
Hypothesis Elarge : large p' = large p ++ (match c_mgr ch with None => [a] | _ => [] end).
Hypothesis Hfresh : fresh h (c_size ch) a.
Hypothesis Hsize : 144 <= c_size ch.
Hypothesis Hblks : NoDup (c_blks ch) /\ forall b, In b (c_blks ch) -> a + 88 <= b /\ b + 56 <= a + c_size ch.
Hypothesis Hkb : match c_mgr ch with Some i => b_large kb = false /\ b_size kb = class_size i | None => b_large kb = true /\ b_size kb = c_size ch - 144 end.
Hypothesis Hwf : wf_chunk p' a ch.

Lemma add_new_ch : chs p a = None.
Proof. apply (fresh_none h p (c_size ch)); [exact Hp|exact Hfresh|lia]. Qed.
Lemma add_new_blk b : In b (c_blks ch) -> blks p b = None.
Proof. intros H. destruct (proj2 Hblks b H) as [H1 H2]. apply (fresh_blk h p (c_size ch) a); [exact Hp|exact Hfresh|lia|lia]. Qed.
Lemma add_chs c : chs p' c = if c =? a then Some ch else chs p c.
Proof. rewrite Ech. reflexivity. Qed.
Lemma add_old c x : chs p c = Some x -> chs p' c = Some x.
Proof. intros H. rewrite add_chs. destruct (N.eqb_spec c a) as [->|]; [rewrite add_new_ch in H; discriminate|exact H]. Qed.
Lemma add_blk_old b k : blks p b = Some k -> blks p' b = Some k /\ ~ In b (c_blks ch).
Proof. intros H. assert (Hn : ~ In b (c_blks ch)) by (intros C; rewrite (add_new_blk _ C) in H; discriminate). split; [rewrite Ebl, set_all_out by exact Hn; exact H|exact Hn]. Qed.
Lemma add_blk_new b : In b (c_blks ch) -> blks p' b = Some kb.
Proof. intros H. rewrite Ebl. apply set_all_in, H. Qed.
Lemma add_blk_cases b k : blks p' b = Some k -> (In b (c_blks ch) /\ k = kb) \/ (~ In b (c_blks ch) /\ blks p b = Some k /\ b_chunk k <> a).
Proof.
  intros H. destruct (in_dec N.eq_dec b (c_blks ch)) as [Hi|Hn].
  - left. rewrite (add_blk_new _ Hi) in H. split; congruence.
  - right. rewrite Ebl, set_all_out in H by exact Hn. split; [exact Hn|]. split; [exact H|]. destruct (s_blk _ _ Hp _ _ H) as (x & Ex & _). intros E. rewrite E, add_new_ch in Ex. discriminate.
Qed.
Lemma add_inv : sinv ((a, c_size ch) :: h) p'.
Proof.
  constructor.
  - exact Elen.
  - intros c x E. rewrite add_chs in E. destruct (N.eqb_spec c a) as [->|Hn]; [injection E as <-; exact Hwf|].
    pose proof (s_ch _ _ Hp _ _ E) as W. unfold wf_chunk in *. destruct (c_mgr x) as [j|]; [|exact W]. destruct W as (H1 & H2 & H3 & H4). repeat split; try assumption.
    intros mj' Em. destruct (Emgr _ _ Em) as (mj & Ej & Eu & _). rewrite Eu. apply H4, Ej.
  - intros j mj' E. destruct (Emgr _ _ E) as (mj & Ej & Eu & Ef & Ec). destruct (s_dup _ _ Hp _ _ Ej) as [H1 H2]. destruct (s_in _ _ Hp _ _ Ej) as [H3 H4]. rewrite Eu, Ef, Ec. split.
    + destruct (at_mgr (c_mgr ch) j); [|rewrite app_nil_r; exact H1]. rewrite <- app_assoc. apply (Permutation_NoDup (l := c_blks ch ++ (m_free mj ++ m_used mj))).
      * rewrite app_assoc, (Permutation_app_comm (c_blks ch)), <- app_assoc. reflexivity.
      * apply nodup_app; [apply Hblks|exact H1|]. intros x Hx C. apply H3 in C. destruct C as (k & _ & Ek & _). rewrite (add_new_blk x Hx) in Ek. discriminate.
    + destruct (at_mgr (c_mgr ch) j); [|rewrite app_nil_r; exact H2]. apply (Permutation_NoDup (Permutation_app_comm [a] (m_chunks mj))). constructor; [|exact H2].
      rewrite H4. intros (x & Ex & _). rewrite add_new_ch in Ex. discriminate.
  - intros j mj' E. destruct (Emgr _ _ E) as (mj & Ej & Eu & Ef & Ec). destruct (s_in _ _ Hp _ _ Ej) as [H3 H4]. rewrite Eu, Ef, Ec. split.
    + intros b. rewrite <- app_assoc. rewrite in_app_iff, in_app_iff. split.
      * intros H. assert (Hc : In b (m_free mj ++ m_used mj) \/ (at_mgr (c_mgr ch) j = true /\ In b (c_blks ch))).
        { rewrite in_app_iff. destruct (at_mgr (c_mgr ch) j); cbn [In] in H; tauto. }
        destruct Hc as [Hc|[Ht Hc]].
        -- apply H3 in Hc. destruct Hc as (k & x & Ek & Ex & Eg). exists k, x. split; [apply add_blk_old, Ek|]. split; [apply add_old, Ex|exact Eg].
        -- exists kb, ch. rewrite (add_blk_new _ Hc), add_chs, Ekc, N.eqb_refl. apply at_mgr_true in Ht. auto.
      * intros (k & x & Ek & Ex & Eg). destruct (add_blk_cases _ _ Ek) as [[Hi ->]|(Hn & Ek' & Hne)].
        -- rewrite add_chs, Ekc, N.eqb_refl in Ex. injection Ex as <-. apply at_mgr_true in Eg. rewrite Eg. auto.
        -- rewrite add_chs in Ex. destruct (N.eqb_spec (b_chunk k) a); [contradiction|]. assert (Hc : In b (m_free mj ++ m_used mj)) by (apply H3; eauto). apply in_app_or in Hc. tauto.
    + intros c. rewrite in_app_iff, H4, add_chs. destruct (N.eqb_spec c a) as [->|Hn].
      * split.
        -- intros [(x & Ex & _)|H]; [rewrite add_new_ch in Ex; discriminate|]. exists ch. split; [reflexivity|]. apply at_mgr_true. destruct (at_mgr (c_mgr ch) j); [reflexivity|contradiction].
        -- intros (x & Ex & Eg). injection Ex as <-. apply at_mgr_true in Eg. rewrite Eg. right. left. reflexivity.
      * split; [intros [H|H]; [exact H|destruct (at_mgr (c_mgr ch) j); [destruct H as [H|[]]; congruence|contradiction]]|auto].
  - rewrite Elarge. destruct (s_large _ _ Hp) as [H1 H2]. split.
    + destruct (c_mgr ch); [rewrite app_nil_r; exact H1|]. apply (Permutation_NoDup (Permutation_app_comm [a] (large p))). constructor; [|exact H1].
      rewrite H2. intros (x & Ex & _). rewrite add_new_ch in Ex. discriminate.
    + intros c. rewrite in_app_iff, H2, add_chs. destruct (N.eqb_spec c a) as [->|Hn].
      * split.
        -- intros [(x & Ex & _)|H]; [rewrite add_new_ch in Ex; discriminate|]. exists ch. split; [reflexivity|]. destruct (c_mgr ch); [contradiction|reflexivity].
        -- intros (x & Ex & Eg). injection Ex as <-. rewrite Eg. right. left. reflexivity.
      * split; [intros [H|H]; [exact H|destruct (c_mgr ch); [contradiction|destruct H as [H|[]]; congruence]]|auto].
  - intros b k E. destruct (add_blk_cases _ _ E) as [[Hi ->]|(Hn & Ek & Hne)].
    + exists ch. rewrite add_chs, Ekc, N.eqb_refl. auto.
    + destruct (s_blk _ _ Hp _ _ Ek) as (x & Ex & H1 & H2). exists x. split; [apply add_old, Ex|auto].
  - intros c x b E Hb. rewrite add_chs in E. destruct (N.eqb_spec c a) as [->|Hn].
    + injection E as <-. exists kb. split; [apply add_blk_new, Hb|exact Ekc].
    + destruct (s_own _ _ Hp _ _ _ E Hb) as (k & Ek & Ec). exists k. split; [apply add_blk_old, Ek|exact Ec].
  - apply (once_cons h p); assumption.
  - intros c n. cbn [In]. rewrite (s_held _ _ Hp), add_chs. destruct (N.eqb_spec c a) as [->|Hn].
    + split.
      * intros [E|(x & Ex & _)]; [injection E as <-; eauto|rewrite add_new_ch in Ex; discriminate].
      * intros (x & Ex & <-). injection Ex as <-. left. reflexivity.
    + split; [intros [E|H]; [congruence|exact H]|auto].
  - intros c n [E|H]; [injection E as <- <-; destruct Hfresh as (F1 & F2 & _); auto|exact (s_range _ _ Hp _ _ H)].
  - apply apart_cons; [exact Hfresh|exact (s_apart _ _ Hp)].
Qed.
Lemma add_used x : used p' x <-> used p x \/ (c_mgr ch = None /\ In x (c_blks ch)).
Proof.
  unfold used. split.
  - intros (k & y & Ek & Ey & Hy). destruct (add_blk_cases _ _ Ek) as [[Hi ->]|(Hn & Ek' & Hne)].
    + rewrite add_chs, Ekc, N.eqb_refl in Ey. injection Ey as <-. destruct (c_mgr ch) as [i|] eqn:Eg; [|auto]. exfalso.
      destruct Hy as (mj' & Em & Hu). destruct (Emgr _ _ Em) as (mj & Ej & Eu & _). rewrite Eu in Hu.
      destruct (s_in _ _ Hp _ _ Ej) as [H3 _]. assert (Hx : In x (m_free mj ++ m_used mj)) by (apply in_or_app; auto). apply H3 in Hx. destruct Hx as (k & _ & Ek' & _).
      rewrite (add_new_blk _ Hi) in Ek'. discriminate.
    + left. rewrite add_chs in Ey. destruct (N.eqb_spec (b_chunk k) a); [contradiction|]. exists k, y. repeat split; try assumption. destruct (c_mgr y) as [i|]; [|exact I].
      destruct Hy as (mj' & Em & Hu). destruct (Emgr _ _ Em) as (mj & Ej & Eu & _). exists mj. rewrite <- Eu. auto.
  - intros [(k & y & Ek & Ey & Hy)|[Eg Hi]].
    + exists k, y. split; [apply add_blk_old, Ek|]. split; [apply add_old, Ey|]. destruct (c_mgr y) as [i|]; [|exact I]. destruct Hy as (mj & Ej & Hu).
      assert (Hi : exists mj', nth_error (tbl p') i = Some mj'). { destruct (nth_error (tbl p') i) eqn:E; [eauto|]. apply nth_error_None in E. rewrite Elen in E. pose proof (mgr_lt _ _ _ _ Hp Ej). lia. }
      destruct Hi as (mj' & Em). destruct (Emgr _ _ Em) as (mj2 & Ej2 & Eu & _). rewrite Ej in Ej2. injection Ej2 as <-. exists mj'. rewrite Eu. auto.
    + exists kb, ch. rewrite (add_blk_new _ Hi), add_chs, Ekc, N.eqb_refl, Eg. auto.
Qed.
End Add.

(** ** A chunk is given back *)
Section Drop.
Variables (h h' : list (N * N)) (p p' : pool) (a : N) (ch : chunk).
Hypothesis Hp : sinv h p.
Hypothesis Ea : chs p a = Some ch.
Hypothesis Ech : forall c, chs p' c = set (chs p) a None c.
Hypothesis Ebl : forall b, blks p' b = set_all (blks p) (c_blks ch) None b.
Hypothesis Elen : length (tbl p') = 35%nat.
Hypothesis Emgr : forall j mj', nth_error (tbl p') j = Some mj' -> exists mj, nth_error (tbl p) j = Some mj /\ m_used mj' = m_used mj /\
  Permutation (m_free mj) ((if at_mgr (c_mgr ch) j then c_blks ch else []) ++ m_free mj') /\ Permutation (m_chunks mj) ((if at_mgr (c_mgr ch) j then [a] else []) ++ m_chunks mj').
Hypothesis Elarge : Permutation (large p) ((match c_mgr ch with None => [a] | _ => [] end) ++ large p').
Hypothesis Hh : Permutation h ((a, c_size ch) :: h').

Lemma drop_chs c : chs p' c = if c =? a then None else chs p c.
Proof. rewrite Ech. reflexivity. Qed.
Lemma drop_ch_iff c x : chs p' c = Some x <-> c <> a /\ chs p c = Some x.
Proof. rewrite drop_chs. destruct (N.eqb_spec c a); split; intros H; try discriminate; try tauto; destruct H; contradiction. Qed.
Lemma drop_blk_iff b k : blks p' b = Some k <-> b_chunk k <> a /\ blks p b = Some k.
Proof.
  rewrite Ebl. destruct (in_dec N.eq_dec b (c_blks ch)) as [Hi|Hn].
  - rewrite set_all_in by exact Hi. split; [discriminate|]. intros [H1 H2]. destruct (s_own _ _ Hp _ _ _ Ea Hi) as (k' & Ek & Ec). rewrite H2 in Ek. injection Ek as <-. contradiction.
  - rewrite set_all_out by exact Hn. split; [|tauto]. intros H. split; [|exact H]. intros E. destruct (s_blk _ _ Hp _ _ H) as (x & Ex & Hx & _). rewrite E, Ea in Ex. injection Ex as <-. contradiction.
Qed.
Lemma drop_inv : sinv h' p'.
Proof.
  constructor.
  - exact Elen.
  - intros c x E. apply drop_ch_iff in E. destruct E as [Hn E]. pose proof (s_ch _ _ Hp _ _ E) as W. unfold wf_chunk in *. destruct (c_mgr x) as [j|]; [|exact W].
    destruct W as (H1 & H2 & H3 & H4). repeat split; try assumption. intros mj' Em. destruct (Emgr _ _ Em) as (mj & Ej & Eu & _). rewrite Eu. apply H4, Ej.
  - intros j mj' E. destruct (Emgr _ _ E) as (mj & Ej & Eu & Ef & Ec). destruct (s_dup _ _ Hp _ _ Ej) as [H1 H2]. rewrite Eu. split.
    + rewrite Ef, <- app_assoc in H1. exact (proj2 (NoDup_app_rem _ _ H1)).
    + rewrite Ec in H2. exact (proj2 (NoDup_app_rem _ _ H2)).
  - intros j mj' E. destruct (Emgr _ _ E) as (mj & Ej & Eu & Ef & Ec). destruct (s_in _ _ Hp _ _ Ej) as [H3 H4]. destruct (s_dup _ _ Hp _ _ Ej) as [H1 H2]. rewrite Eu. split.
    + intros b. transitivity (In b (m_free mj ++ m_used mj) /\ (at_mgr (c_mgr ch) j = true -> ~ In b (c_blks ch))).
      * rewrite Ef, <- app_assoc in H1. split.
        -- intros H. split; [rewrite Ef, <- app_assoc; apply in_or_app; auto|]. intros Ht C. rewrite Ht in H1. exact (nodup_disjoint _ _ H1 _ C H).
        -- intros [H Hn]. rewrite Ef, <- app_assoc in H. apply in_app_or in H. destruct H as [H|H]; [|exact H]. destruct (at_mgr (c_mgr ch) j); [exfalso; exact (Hn eq_refl H)|contradiction].
      * rewrite H3. split.
        -- intros [(k & x & Ek & Ex & Eg) Hn]. exists k, x. assert (Hne : b_chunk k <> a).
           { intros E'. rewrite E', Ea in Ex. injection Ex as <-. apply Hn; [apply at_mgr_true; exact Eg|]. destruct (s_blk _ _ Hp _ _ Ek) as (y & Ey & Hy & _). rewrite E', Ea in Ey. injection Ey as <-. exact Hy. }
           split; [apply drop_blk_iff; auto|]. split; [apply drop_ch_iff; auto|exact Eg].
        -- intros (k & x & Ek & Ex & Eg). apply drop_blk_iff in Ek. apply drop_ch_iff in Ex. destruct Ek as [Hne Ek], Ex as [_ Ex]. split; [eauto|]. intros _ C.
           destruct (s_own _ _ Hp _ _ _ Ea C) as (k' & Ek' & Ec'). rewrite Ek in Ek'. injection Ek' as <-. contradiction.
    + intros c. transitivity (In c (m_chunks mj) /\ c <> a).
      * rewrite Ec in H2. split.
        -- intros H. split; [rewrite Ec; apply in_or_app; auto|]. intros ->. destruct (at_mgr (c_mgr ch) j) eqn:Ht.
           ++ exact (nodup_disjoint _ _ H2 _ (or_introl eq_refl) H).
           ++ assert (Hc : In a (m_chunks mj)) by (rewrite Ec; apply in_or_app; auto). apply H4 in Hc. destruct Hc as (x & Ex & Eg). rewrite Ea in Ex. injection Ex as <-. apply at_mgr_true in Eg. congruence.
        -- intros [H Hn]. rewrite Ec in H. apply in_app_or in H. destruct H as [H|H]; [|exact H]. destruct (at_mgr (c_mgr ch) j); [destruct H as [H|[]]; congruence|contradiction].
      * rewrite H4. split.
        -- intros [(x & Ex & Eg) Hn]. exists x. split; [apply drop_ch_iff; auto|exact Eg].
        -- intros (x & Ex & Eg). apply drop_ch_iff in Ex. destruct Ex. eauto.
  - destruct (s_large _ _ Hp) as [H1 H2]. split.
    + rewrite Elarge in H1. exact (proj2 (NoDup_app_rem _ _ H1)).
    + intros c. transitivity (In c (large p) /\ c <> a).
      * rewrite Elarge in H1. split.
        -- intros H. split; [rewrite Elarge; apply in_or_app; auto|]. intros ->. destruct (c_mgr ch) as [i|] eqn:Ht.
           ++ assert (Hc : In a (large p)) by (rewrite Elarge; apply in_or_app; auto). apply H2 in Hc. destruct Hc as (x & Ex & Eg). rewrite Ea in Ex. injection Ex as <-. congruence.
           ++ exact (nodup_disjoint _ _ H1 _ (or_introl eq_refl) H).
        -- intros [H Hn]. rewrite Elarge in H. apply in_app_or in H. destruct H as [H|H]; [|exact H]. destruct (c_mgr ch); [contradiction|destruct H as [H|[]]; congruence].
      * rewrite H2. split.
        -- intros [(x & Ex & Eg) Hn]. exists x. split; [apply drop_ch_iff; auto|exact Eg].
        -- intros (x & Ex & Eg). apply drop_ch_iff in Ex. destruct Ex. eauto.
  - intros b k E. apply drop_blk_iff in E. destruct E as [Hn E]. destruct (s_blk _ _ Hp _ _ E) as (x & Ex & H). exists x. split; [apply drop_ch_iff; auto|exact H].
  - intros c x b E Hb. apply drop_ch_iff in E. destruct E as [Hn E]. destruct (s_own _ _ Hp _ _ _ E Hb) as (k & Ek & Ec). exists k. split; [apply drop_blk_iff; split; [congruence|exact Ek]|exact Ec].
  - pose proof (Permutation_NoDup (Permutation_map fst Hh) (s_once _ _ Hp)) as H. cbn [map] in H. inversion H; assumption.
  - intros c n. pose proof (Permutation_NoDup (Permutation_map fst Hh) (s_once _ _ Hp)) as H. cbn [map fst] in H. inversion H as [|? ? Hna _]; subst.
    transitivity (In (c, n) h /\ c <> a).
    + split.
      * intros Hi. split; [rewrite Hh; right; exact Hi|]. intros ->. apply Hna. apply (in_map fst _ _ Hi).
      * intros [Hi Hn]. rewrite Hh in Hi. destruct Hi as [E|Hi]; [congruence|exact Hi].
    + rewrite (s_held _ _ Hp). split.
      * intros [(x & Ex & En) Hn]. exists x. split; [apply drop_ch_iff; auto|exact En].
      * intros (x & Ex & En). apply drop_ch_iff in Ex. destruct Ex. eauto.
  - intros c n Hi. apply (s_range _ _ Hp). rewrite Hh. right. exact Hi.
  - intros c n c' n' Hi Hi'. apply (s_apart _ _ Hp); rewrite Hh; right; assumption.
Qed.
Lemma drop_used x : used p' x <-> used p x /\ (c_mgr ch = None -> ~ In x (c_blks ch)).
Proof.
  unfold used. split.
  - intros (k & y & Ek & Ey & Hy). apply drop_blk_iff in Ek. apply drop_ch_iff in Ey. destruct Ek as [Hn Ek], Ey as [_ Ey]. split.
    + exists k, y. repeat split; try assumption. destruct (c_mgr y) as [j|]; [|exact I]. destruct Hy as (mj' & Em & Hu). destruct (Emgr _ _ Em) as (mj & Ej & Eu & _). exists mj. rewrite <- Eu. auto.
    + intros _ C. destruct (s_own _ _ Hp _ _ _ Ea C) as (k' & Ek' & Ec'). rewrite Ek in Ek'. injection Ek' as <-. contradiction.
  - intros [(k & y & Ek & Ey & Hy) Hl]. assert (Hg : forall j mj, nth_error (tbl p) j = Some mj -> exists mj', nth_error (tbl p') j = Some mj' /\ m_used mj' = m_used mj /\
        Permutation (m_free mj) ((if at_mgr (c_mgr ch) j then c_blks ch else []) ++ m_free mj')).
    { intros j mj Ej. destruct (nth_error (tbl p') j) as [mj'|] eqn:E; [|apply nth_error_None in E; rewrite Elen in E; pose proof (mgr_lt _ _ _ _ Hp Ej); lia].
      destruct (Emgr _ _ E) as (mj2 & Ej2 & Eu & Ef & _). rewrite Ej in Ej2. injection Ej2 as <-. eauto. }
    assert (Hn : b_chunk k <> a).
    { intros E. destruct (s_blk _ _ Hp _ _ Ek) as (z & Ez & Hz & _). rewrite E, Ea in Ez. injection Ez as <-. rewrite E, Ea in Ey. injection Ey as <-.
      destruct (c_mgr ch) as [j|] eqn:Eg; [|exact (Hl eq_refl Hz)]. destruct Hy as (mj & Ej & Hu). destruct (Hg _ _ Ej) as (mj' & _ & _ & Ef).
      assert (Ht : at_mgr (Some j) j = true) by (apply at_mgr_true; reflexivity). rewrite Ht in Ef. destruct (s_dup _ _ Hp _ _ Ej) as [H1 _]. rewrite Ef, <- app_assoc in H1.
      apply (nodup_disjoint _ _ H1 x Hz). apply in_or_app. right. exact Hu. }
    exists k, y. split; [apply drop_blk_iff; auto|]. split; [apply drop_ch_iff; auto|]. destruct (c_mgr y) as [j|]; [|exact I]. destruct Hy as (mj & Ej & Hu).
    destruct (Hg _ _ Ej) as (mj' & Em & Eu & _). exists mj'. rewrite Eu. auto.
Qed.
End Drop.

(** ** The calls *)
Lemma sinv_used h p n : sinv h p -> sinv h (set_used p n).
Proof. intros H. destruct H. constructor; assumption. Qed.
Lemma sinv_mem h p f : sinv h p -> sinv h (set_mem p f).
Proof. intros H. destruct H. constructor; assumption. Qed.

Definition cinv (h : list (N * N)) (l : N) (p : pool) : Prop := capacity p <> 0 -> in_used p = total h + l /\ in_used p <= capacity p.

Lemma reserve_some h l p n p1 : capacity p < 2 ^ 62 -> n <= 2 ^ 63 + 147 -> cinv h l p -> reserve p n = Some p1 ->
  exists u, p1 = set_used p u /\ (capacity p <> 0 -> u = in_used p + n /\ u <= capacity p).
Proof.
  intros Hc Hn Hi H. unfold reserve in H. destruct (N.eqb_spec (capacity p) 0) as [E|E].
  - injection H as <-. exists (in_used p). split; [destruct p; reflexivity|contradiction].
  - destruct (Hi E) as [_ Hu]. rewrite N.mod_small in H by (change (2 ^ 64) with 18446744073709551616; change (2 ^ 63) with 9223372036854775808 in *; change (2 ^ 62) with 4611686018427387904 in *; clear - Hc Hn Hu; lia).
    destruct (N.ltb_spec (capacity p) (n + in_used p)) as [|Hl]; [discriminate|]. injection H as <-. exists (n + in_used p). split; [reflexivity|]. intros _. clear - Hl. lia.
Qed.
Lemma release_ok h l p n a h' : capacity p < 2 ^ 62 -> cinv h l p -> Permutation h ((a, n) :: h') -> exists u, release p n = set_used p u /\ (capacity p <> 0 -> u = total h' + l /\ u <= capacity p).
Proof.
  intros Hc Hi Hp. assert (Et : total h = n + total h').
  { clear - Hp. unfold total. remember ((a, n) :: h') as h2 eqn:E. assert (Ht : fold_right (fun c s => snd c + s) 0 h = fold_right (fun c s => snd c + s) 0 h2).
    { clear E. induction Hp; cbn [fold_right]; lia. } rewrite Ht, E. reflexivity. }
  unfold release. destruct (N.eqb_spec (capacity p) 0) as [E|E].
  - exists (in_used p). split; [destruct p; reflexivity|contradiction].
  - destruct (Hi E) as [Hu Hle]. eexists. split; [reflexivity|]. intros _.
    assert (Hn : n <= in_used p) by (clear - Hu Et; lia).
    replace (in_used p + (2 ^ 64 - n)) with ((in_used p - n) + 1 * 2 ^ 64) by (change (2 ^ 64) with 18446744073709551616; change (2 ^ 63) with 9223372036854775808 in *; change (2 ^ 62) with 4611686018427387904 in *; clear - Hn Hle Hc; lia).
    rewrite N.mod_add by discriminate. rewrite N.mod_small by (change (2 ^ 64) with 18446744073709551616; change (2 ^ 63) with 9223372036854775808 in *; change (2 ^ 62) with 4611686018427387904 in *; clear - Hle Hc; lia). clear - Hu Et Hle. lia.
Qed.

Definition asked (h : list (N * N)) (o : out) : list (N * N) := match o_ask o with Some (n, Some a) => (a, n) :: h | _ => h end.
Definition failed (o : out) : N := match o_ask o with Some (n, None) => n | _ => 0 end.
(** What mln_alloc_m does. *)
Definition alloc_post (h : list (N * N)) (l : N) (p : pool) (size : N) (p' : pool) (o : out) : Prop :=
  o_back o = None /\ capacity p' = capacity p /\ mem p' = mem p /\ sinv (asked h o) p' /\ cinv (asked h o) (l + failed o) p' /\
  (forall b k, blks p b = Some k -> blks p' b = Some k) /\
  match o_ptr o with
  | None => (forall x, used p' x <-> used p x) /\ ((exists n, o_ask o = Some (n, None)) \/ (capacity p <> 0 /\ o_ask o = None))
  | Some q => exists b k, q = b + 56 /\ blks p' b = Some k /\ size <= b_size k /\ ~ used p b /\ forall x, used p' x <-> x = b \/ used p x
  end.

Lemma total_cons a n h : total ((a, n) :: h) = n + total h.
Proof. reflexivity. Qed.
Lemma large_m_ok h l p size ans : sinv h p -> cinv h l p -> capacity p < 2 ^ 62 -> 2097152 < size -> size < 2 ^ 63 -> (forall n a, ans n = Some a -> fresh h n a) ->
  alloc_post h l p size (fst (large_m p size ans)) (snd (large_m p size ans)).
Proof.
  intros Hp Hc Hcap Hbig Hs Hf. unfold large_m. change (blk_hdr) with 56. change chunk_hdr with 88.
  rewrite N.mod_small by (change (2 ^ 64) with 18446744073709551616; change (2 ^ 63) with 9223372036854775808 in *; change (2 ^ 62) with 4611686018427387904 in *; clear - Hs; lia).
  destruct (align4_ok (size + 56 + 88) ltac:(change (2 ^ 64) with 18446744073709551616; change (2 ^ 63) with 9223372036854775808 in *; change (2 ^ 62) with 4611686018427387904 in *; clear - Hs; lia)) as [[Ha1 Ha2] _].
  revert Ha1 Ha2. generalize (align4 (size + 56 + 88)). intros n Ha1 Ha2. cbv zeta. assert (Hn : n <= 2 ^ 63 + 147) by (clear - Ha2 Hs; lia).
  destruct (reserve p n) as [p1|] eqn:Er.
  - destruct (reserve_some _ _ _ _ _ Hcap Hn Hc Er) as (u & -> & Hu). destruct (ans n) as [a|] eqn:Ea.
    + cbn [fst snd]. specialize (Hf _ _ Ea).
      set (ch := mkCh 1 0 None [a + 88] n). set (kb := mkBlk a ((n + (2 ^ 64 - (88 + 56))) mod 2 ^ 64) true). set (p' := set_blk _ _ _).
      assert (Ek : b_size kb = n - 144).
      { cbn [b_size kb]. replace (n + (2 ^ 64 - (88 + 56))) with ((n - 144) + 1 * 2 ^ 64) by (change (2 ^ 64) with 18446744073709551616; change (2 ^ 63) with 9223372036854775808 in *; change (2 ^ 62) with 4611686018427387904 in *; clear - Ha1 Hn; lia).
        rewrite N.mod_add by discriminate. apply N.mod_small. change (2 ^ 64) with 18446744073709551616; change (2 ^ 63) with 9223372036854775808 in *; change (2 ^ 62) with 4611686018427387904 in *. clear - Ha1 Hn. lia. }
      assert (A1 : NoDup (c_blks ch) /\ forall b, In b (c_blks ch) -> a + 88 <= b /\ b + 56 <= a + c_size ch).
      { cbn [c_blks ch c_size]. split; [repeat constructor; tauto|]. intros b [<-|[]]. clear - Ha1. lia. }
      assert (Emgr : forall j mj', nth_error (tbl p') j = Some mj' -> exists mj, nth_error (tbl p) j = Some mj /\ m_used mj' = m_used mj /\
         m_free mj' = m_free mj ++ (if at_mgr (c_mgr ch) j then c_blks ch else []) /\ m_chunks mj' = m_chunks mj ++ (if at_mgr (c_mgr ch) j then [a] else [])).
      { intros j mj E. exists mj. cbn [at_mgr c_mgr ch]. rewrite !app_nil_r. auto. }
      assert (A2 : length (tbl p') = 35%nat) by exact (s_len _ _ Hp).
      assert (A3 : 144 <= c_size ch) by (cbn [c_size ch]; clear - Ha1; lia).
      assert (A4 : match c_mgr ch with Some i => b_large kb = false /\ b_size kb = class_size i | None => b_large kb = true /\ b_size kb = c_size ch - 144 end) by (split; [reflexivity|exact Ek]).
      assert (A5 : wf_chunk p' a ch) by (split; [reflexivity|cbn [c_size ch]; clear - Ha1 Hbig; lia]).
      assert (Hinv : sinv ((a, c_size ch) :: h) p') by (apply (add_inv h p p' a ch kb); first [assumption|reflexivity]).
      split; [reflexivity|]. split; [reflexivity|]. split; [reflexivity|]. split; [exact Hinv|]. split.
      { intros Hz. destruct (Hu Hz) as [Hu1 Hu2]. destruct (Hc Hz) as [Hc1 _]. unfold asked, failed. cbn [o_ask]. rewrite total_cons. change (in_used p') with u. change (capacity p') with (capacity p). clear - Hu1 Hu2 Hc1. lia. }
      assert (Hold : forall b k, blks p b = Some k -> blks p' b = Some k).
      { intros b k E. eapply (add_blk_old h p p' a ch kb); first [eassumption|reflexivity]. }
      split; [exact Hold|]. cbn [o_ptr]. exists (a + 88), kb. split; [reflexivity|]. split; [apply set_same|]. split; [rewrite Ek; clear - Ha1; lia|].
      assert (Hnb : blks p (a + 88) = None).
      { eapply (add_new_blk h p p' a ch kb); first [eassumption|reflexivity|left; reflexivity]. }
      split; [intros H; destruct (used_exists _ _ H) as (k & E); congruence|].
      intros x. rewrite (add_used h p p' a ch kb) by first [assumption|reflexivity].
      cbn [c_mgr ch c_blks In]. split; [intros [H|[_ [H|[]]]]; auto|intros [H|H]; auto].
    + cbn [fst snd]. split; [reflexivity|]. split; [reflexivity|]. split; [reflexivity|]. split; [apply sinv_used; exact Hp|]. split.
      { intros Hz. destruct (Hu Hz) as [Hu1 Hu2]. destruct (Hc Hz) as [Hc1 _]. unfold asked, failed. cbn [o_ask]. change (in_used (set_used p u)) with u. change (capacity (set_used p u)) with (capacity p). clear - Hu1 Hu2 Hc1. lia. }
      split; [auto|]. cbn [o_ptr]. split; [reflexivity|]. left. eexists. reflexivity.
  - cbn [fst snd]. split; [reflexivity|]. split; [reflexivity|]. split; [reflexivity|]. split; [exact Hp|]. unfold asked, failed. cbn [o_ask]. rewrite N.add_0_r. split; [exact Hc|].
    split; [auto|]. cbn [o_ptr]. split; [reflexivity|]. right. split; [|reflexivity]. intros Hz. unfold reserve in Er. rewrite Hz in Er. discriminate.
Qed.

Lemma oom_ok h p i o : sinv h p -> (i < 35)%nat ->
  (oom p i o = Some (p, o None)) \/
  exists j p' b k, (i <= j < 35)%nat /\ oom p i o = Some (p', o (Some (b + 56))) /\ sinv h p' /\ blks p' = blks p /\ mem p' = mem p /\ capacity p' = capacity p /\ in_used p' = in_used p /\
    blks p b = Some k /\ b_size k = class_size j /\ ~ used p b /\ (forall x, used p' x <-> x = b \/ used p x).
Proof.
  intros Hp Hi. unfold oom. destruct (find _ _) as [j|] eqn:E; [|left; reflexivity]. right. apply find_some in E. destruct E as [Hj Ht]. apply in_seq in Hj. change mgr_len with 35%nat in Hj.
  destruct (nth_error (tbl p) j) as [m|] eqn:Em; [|discriminate]. destruct (take_ok h p j m o Hp Em) as (p' & b & k & H); [destruct (m_free m); discriminate|].
  exists j, p', b, k. split; [lia|exact H].
Qed.
Lemma oom_post h l p0 p i size o : sinv h p -> cinv (asked h (o None)) (l + failed (o None)) p -> (i < 35)%nat -> size <= class_size i ->
  (forall x y, asked h (o x) = asked h (o y) /\ failed (o x) = failed (o y) /\ o_ptr (o x) = x /\ o_back (o x) = None) ->
  asked h (o None) = h -> capacity p = capacity p0 -> mem p = mem p0 -> blks p = blks p0 -> (forall x, used p x <-> used p0 x) ->
  ((exists n, o_ask (o None) = Some (n, None)) \/ (capacity p0 <> 0 /\ o_ask (o None) = None)) ->
  exists p' r, oom p i o = Some (p', r) /\ alloc_post h l p0 size p' r.
Proof.
  intros Hp Hc Hi Hs Ho Eh Ecap Emem Eblk Eu Hwhy. destruct (oom_ok h p i o Hp Hi) as [E|(j & p' & b & k & Hj & E & Hp' & Eb & Em & Ec & Ei & Ek & Es & Hn & Hu)].
  - exists p, (o None). split; [exact E|]. destruct (Ho None None) as (_ & _ & H1 & H2). unfold alloc_post. rewrite H1, Eh in *. repeat (split; [assumption|]). split; [rewrite Eblk; auto|]. split; assumption.
  - exists p', (o (Some (b + 56))). split; [exact E|]. destruct (Ho (Some (b + 56)) None) as (H0 & H0' & H1 & H2). unfold alloc_post. rewrite H1, H0, H0', Eh in *.
    split; [exact H2|]. split; [congruence|]. split; [congruence|]. split; [exact Hp'|]. split; [intros Hz; rewrite Ec, Ei in *; apply Hc; exact Hz|]. split; [rewrite Eb, Eblk; auto|].
    exists b, k. split; [reflexivity|]. split; [congruence|]. split; [rewrite Es; pose proof (class_le i j ltac:(lia) ltac:(lia)); lia|]. split; [rewrite <- Eu; exact Hn|]. intros x. rewrite Hu, Eu. reflexivity.
Qed.
Lemma used_set_used p u x : used (set_used p u) x <-> used p x.
Proof. reflexivity. Qed.
Lemma add_chunk_ok h p i m a : sinv h p -> nth_error (tbl p) i = Some m -> fresh h (chunk_size i) a ->
  let p' := add_chunk p i m a in
  sinv ((a, chunk_size i) :: h) p' /\ (forall b k, blks p b = Some k -> blks p' b = Some k) /\ (forall x, used p' x <-> used p x) /\
  (exists m', nth_error (tbl p') i = Some m' /\ m_free m' <> []) /\ mem p' = mem p /\ capacity p' = capacity p /\ in_used p' = in_used p.
Proof.
  intros Hp Hm Hf p'. pose proof (mgr_lt _ _ _ _ Hp Hm) as Hi. destruct (sizes i Hi) as (Hs1 & Hs2 & _ & _ & Hcs).
  set (ch := mkCh 0 0 (Some i) (blocks a i) (chunk_size i)). set (kb := mkBlk a (class_size i) false).
  assert (Ep : p' = mkPool (capacity p) (in_used p) (upd (tbl p) i (mkMgr (m_free m ++ blocks a i) (m_used m) (m_chunks m ++ [a]))) (large p) (set_all (blks p) (blocks a i) (Some kb)) (set (chs p) a (Some ch)) (mem p)).
  { unfold p', add_chunk. cbv zeta. rewrite fold_set_blk. reflexivity. }
  assert (A1 : NoDup (c_blks ch) /\ forall b, In b (c_blks ch) -> a + 88 <= b /\ b + 56 <= a + c_size ch).
  { cbn [c_blks ch c_size]. split; [apply blocks_nodup; exact Hi|]. intros b Hb. apply blocks_range in Hb; [|exact Hi]. clear - Hb. lia. }
  assert (A2 : length (tbl p') = 35%nat) by (rewrite Ep; cbn [tbl]; rewrite upd_length; exact (s_len _ _ Hp)).
  assert (Emgr : forall j mj', nth_error (tbl p') j = Some mj' -> exists mj, nth_error (tbl p) j = Some mj /\ m_used mj' = m_used mj /\
         m_free mj' = m_free mj ++ (if at_mgr (c_mgr ch) j then c_blks ch else []) /\ m_chunks mj' = m_chunks mj ++ (if at_mgr (c_mgr ch) j then [a] else [])).
  { intros j mj E. rewrite Ep in E. cbn [tbl] in E. rewrite nth_error_upd in E. cbn [at_mgr c_mgr ch]. destruct (Nat.eqb_spec i j) as [<-|Hn].
    - destruct (i <? length (tbl p))%nat; [|discriminate]. injection E as <-. exists m. auto.
    - exists mj. rewrite !app_nil_r. auto. }
  assert (A3 : 144 <= c_size ch) by (cbn [c_size ch]; rewrite Hcs; clear - Hs1; lia).
  assert (A4 : match c_mgr ch with Some i => b_large kb = false /\ b_size kb = class_size i | None => b_large kb = true /\ b_size kb = c_size ch - 144 end) by (split; reflexivity).
  assert (Ech : chs p' = set (chs p) a (Some ch)) by (rewrite Ep; reflexivity).
  assert (Ebl : blks p' = set_all (blks p) (c_blks ch) (Some kb)) by (rewrite Ep; reflexivity).
  assert (Ela : large p' = large p ++ match c_mgr ch with None => [a] | _ => [] end) by (rewrite Ep; cbn [large c_mgr ch]; rewrite app_nil_r; reflexivity).
  assert (Hfr : fresh h (c_size ch) a) by exact Hf.
  assert (Em' : nth_error (tbl p') i = Some (mkMgr (m_free m ++ blocks a i) (m_used m) (m_chunks m ++ [a]))).
  { rewrite Ep. cbn [tbl]. apply nth_error_upd_eq. rewrite (s_len _ _ Hp). exact Hi. }
  assert (A5 : wf_chunk p' a ch).
  { unfold wf_chunk. cbn [c_mgr ch c_blks c_size c_refer]. split; [exact Hi|]. split; [reflexivity|]. split; [reflexivity|]. intros m' E. rewrite Em' in E. injection E as <-. cbn [m_used].
    assert (Hz : forall x, In x (blocks a i) -> ~ In x (m_used m)).
    { intros x Hx C. destruct (s_in _ _ Hp _ _ Hm) as [H3 _]. assert (Hc : In x (m_free m ++ m_used m)) by (apply in_or_app; auto). apply H3 in Hc. destruct Hc as (k & _ & Ek & _).
      apply blocks_range in Hx; [|exact Hi]. rewrite (fresh_blk h p (chunk_size i) a x Hp Hf) in Ek; [discriminate| |]; clear - Hx; lia. }
    unfold uses. replace (filter (inb (m_used m)) (blocks a i)) with (@nil N); [reflexivity|]. symmetry. clear - Hz. induction (blocks a i) as [|x l IH]; [reflexivity|]. cbn [filter].
    assert (E : inb (m_used m) x = false) by (apply not_true_is_false; rewrite inb_in; apply Hz; left; reflexivity). rewrite E. apply IH. intros y Hy. apply Hz. right. exact Hy. }
  split; [apply (add_inv h p p' a ch kb); first [assumption|reflexivity]|].
  split; [intros b k E; eapply (add_blk_old h p p' a ch kb); first [eassumption|reflexivity]|].
  split; [intros x; rewrite (add_used h p p' a ch kb) by first [assumption|reflexivity]; cbn [c_mgr ch]; split; [intros [H|[H _]]; [exact H|discriminate]|auto]|].
  split; [eexists; split; [exact Em'|]; cbn [m_free]; unfold blocks; change blk_num with 4%nat; cbn [seq map]; destruct (m_free m); discriminate|].
  rewrite Ep. auto.
Qed.

Lemma alloc_m_ok h l p size ans : sinv h p -> cinv h l p -> capacity p < 2 ^ 62 -> size < 2 ^ 63 -> (forall n a, ans n = Some a -> fresh h n a) ->
  exists p' o, alloc_m p size ans = Some (p', o) /\ alloc_post h l p size p' o.
Proof.
  intros Hp Hc Hcap Hs Hf. unfold alloc_m. destruct (class_of size) as [i|] eqn:Ei.
  2: { eexists; eexists. split; [rewrite (surjective_pairing (large_m p size ans)); reflexivity|]. apply class_of_none in Ei. apply large_m_ok; assumption. }
  apply class_of_ok in Ei. destruct Ei as (Hi & Hsz & _). destruct (mgr_at _ _ i Hp Hi) as (m & Em). rewrite Em. cbn [obind]. destruct (sizes i Hi) as (_ & Hs2 & _ & _ & Hcs).
  destruct (m_free m) as [|b0 t] eqn:Ef.
  - cbv zeta. destruct (reserve p (chunk_size i)) as [p1|] eqn:Er.
    + assert (Hn : chunk_size i <= 2 ^ 63 + 147). { rewrite Hcs. change (2 ^ 63) with 9223372036854775808. change (2 ^ 21) with 2097152 in Hs2. clear - Hs2. lia. }
      destruct (reserve_some _ _ _ _ _ Hcap Hn Hc Er) as (u & -> & Hu). destruct (ans (chunk_size i)) as [a|] eqn:Ea.
      * specialize (Hf _ _ Ea). pose proof (sinv_used h p u Hp) as Hp1. assert (Em1 : nth_error (tbl (set_used p u)) i = Some m) by exact Em.
        destruct (add_chunk_ok _ _ _ _ _ Hp1 Em1 Hf) as (Hp2 & Hold & Husd & (m' & Em' & Hne) & Hmm & Hcc & Hii).
        destruct (take_ok _ _ _ _ (fun x => mkOut x (Some (chunk_size i, Some a)) None) Hp2 Em' Hne) as (p' & b & k & E & Hp' & Eb & Emm & Ec & Eii & Ek & Es & Hnu & Hus).
        exists p'. eexists. split; [exact E|]. unfold alloc_post, asked, failed. cbn [o_back o_ask o_ptr]. split; [reflexivity|]. split; [rewrite Ec; exact Hcc|]. split; [rewrite Emm; exact Hmm|]. split; [exact Hp'|]. split.
        { intros Hz. rewrite Ec, Hcc in Hz. destruct (Hu Hz) as [Hu1 Hu2]. destruct (Hc Hz) as [Hc1 _]. rewrite Eii, Hii, Ec, Hcc, total_cons. change (in_used (set_used p u)) with u. change (capacity (set_used p u)) with (capacity p). clear - Hu1 Hu2 Hc1. lia. }
        split; [intros x kx Ex; rewrite Eb; apply Hold; exact Ex|]. exists b, k. split; [reflexivity|]. split; [rewrite Eb; exact Ek|]. split; [rewrite Es; exact Hsz|].
        split; [intros C; apply Hnu; apply Husd; exact C|]. intros x. rewrite Hus, Husd. reflexivity.
      * apply (oom_post h l p (set_used p u) i size); try assumption; try reflexivity.
        -- apply sinv_used; exact Hp.
        -- intros Hz. change (capacity (set_used p u)) with (capacity p) in *. destruct (Hu Hz) as [Hu1 Hu2]. destruct (Hc Hz) as [Hc1 _]. unfold asked, failed. cbn [o_ask]. change (in_used (set_used p u)) with u. clear - Hu1 Hu2 Hc1. lia.
        -- intros x y. repeat split; reflexivity.
        -- left. eexists. reflexivity.
    + apply (oom_post h l p p i size); try assumption; try reflexivity.
      * unfold asked, failed. cbn [o_ask]. rewrite N.add_0_r. exact Hc.
      * intros x y. repeat split; reflexivity.
      * right. split; [|reflexivity]. intros Hz. unfold reserve in Er. rewrite Hz in Er. discriminate.
  - destruct (take_ok _ _ _ _ (fun x => mkOut x None None) Hp Em ltac:(rewrite Ef; discriminate)) as (p' & b & k & E & Hp' & Eb & Emm & Ec & Eii & Ek & Es & Hnu & Hus).
    exists p'. eexists. split; [exact E|]. unfold alloc_post, asked, failed. cbn [o_back o_ask o_ptr]. split; [reflexivity|]. split; [exact Ec|]. split; [exact Emm|]. split; [exact Hp'|]. rewrite N.add_0_r.
    split; [intros Hz; rewrite Ec, Eii in *; apply Hc; exact Hz|]. split; [rewrite Eb; auto|]. exists b, k. split; [reflexivity|]. split; [rewrite Eb; exact Ek|]. split; [rewrite Es; exact Hsz|]. split; assumption.
Qed.

(** ** A block is given back *)
Definition given (h : list (N * N)) (back : option N) : list (N * N) := match back with Some a => filter (fun c => negb (fst c =? a)) h | None => h end.
Lemma filter_all A (f : A -> bool) l : (forall x, In x l -> f x = true) -> filter f l = l.
Proof. induction l as [|x l IH]; intros H; [reflexivity|]. cbn [filter]. rewrite (H x) by (left; reflexivity). rewrite IH; [reflexivity|]. intros y Hy. apply H. right. exact Hy. Qed.
Lemma given_perm a n : forall h, NoDup (map fst h) -> In (a, n) h -> Permutation h ((a, n) :: given h (Some a)).
Proof.
  unfold given. induction h as [|[c m] h IH]; cbn [map fst In filter]; intros Hd Hi; [contradiction|]. inversion Hd as [|? ? Hn Hd']; subst. destruct Hi as [E|Hi].
  - injection E as -> ->. rewrite N.eqb_refl. cbn [negb]. rewrite filter_all; [reflexivity|]. intros [c m] Hx. cbn [fst]. apply negb_true_iff, N.eqb_neq. intros ->. apply Hn. apply in_map_iff. exists (a, m). auto.
  - destruct (N.eqb_spec c a) as [->|Hc].
    + exfalso. apply Hn. apply in_map_iff. exists (a, n). auto.
    + cbn [negb]. rewrite (IH Hd' Hi) at 1. constructor.
Qed.
Definition free_post (h : list (N * N)) (l : N) (p : pool) (b : N) (p' : pool) (back : option N) : Prop :=
  sinv (given h back) p' /\ cinv (given h back) l p' /\ capacity p' = capacity p /\ mem p' = mem p /\
  (forall x, used p' x <-> used p x /\ x <> b) /\ (forall x k, blks p' x = Some k -> blks p x = Some k) /\ (forall a, back = Some a -> In a (map fst h)).

Lemma free_ok h l p b : sinv h p -> cinv h l p -> capacity p < 2 ^ 62 -> used p b ->
  exists p' back, alloc_free p (b + 56) = Some (p', back) /\ free_post h l p b p' back.
Proof.
  intros Hp Hc Hcap (k & ch & Ek & Ech & Hu). unfold alloc_free. change blk_hdr with 56. destruct (N.ltb_spec (b + 56) 56) as [Hx|_]; [exfalso; clear - Hx; lia|]. rewrite N.add_sub.
  rewrite Ek. cbn [obind]. rewrite Ech. cbn [obind]. destruct (s_blk _ _ Hp _ _ Ek) as (ch' & Ech' & Hb & Hk). rewrite Ech in Ech'. injection Ech' as <-.
  pose proof (s_ch _ _ Hp _ _ Ech) as W. unfold wf_chunk in W.
  assert (Hin : In (b_chunk k, c_size ch) h) by (apply (s_held _ _ Hp); exists ch; auto).
  pose proof (given_perm _ _ _ (s_once _ _ Hp) Hin) as Ph. destruct (c_mgr ch) as [i|] eqn:Eg.
  - destruct Hu as (m & Em & Hum). destruct Hk as [El Es]. rewrite El. unfold small_free. rewrite Eg. cbn [obind]. rewrite Em. cbn [obind].
    destruct (chain_del_in _ _ Hum) as (us & Ed). rewrite Ed. cbn [obind]. pose proof (chain_del_perm _ _ _ Ed) as Pd. cbv zeta. destruct W as (Hi & Eb & Ecs & Hr). specialize (Hr _ Em).
    destruct (s_dup _ _ Hp _ _ Em) as [Hd Hdc].
    assert (Hnu : ~ In b us). { destruct (NoDup_app_rem _ _ Hd) as [_ Hd2]. rewrite Pd in Hd2. inversion Hd2; assumption. }
    assert (Hr' : c_refer ch = uses (c_blks ch) us + 1).
    { rewrite Hr. rewrite <- (uses_cons b); [|rewrite Eb; apply blocks_nodup; exact Hi|exact Hb|exact Hnu]. apply uses_ext. intros x _. rewrite Pd. reflexivity. }
    destruct (N.eqb_spec (c_refer ch) 0) as [E0|_]; [exfalso; clear - E0 Hr'; lia|].
    set (r := c_refer ch - 1). assert (Err : r = uses (c_blks ch) us) by (unfold r; clear - Hr'; lia).
    set (cnt := if r =? 0 then c_count ch + 1 else c_count ch). set (m1 := mkMgr (m_free m ++ [b]) us (m_chunks m)).
    assert (Hp1 : Permutation (m_free m1 ++ m_used m1) (m_free m ++ m_used m)). { cbn [m_free m_used m1]. rewrite Pd, <- app_assoc. reflexivity. }
    assert (Hu1 : forall x, x <> b -> (In x (m_used m1) <-> In x (m_used m))). { intros x Hx. cbn [m_used m1]. rewrite Pd. cbn [In]. split; [auto|]. intros [C|C]; [congruence|exact C]. }
    assert (Hc1 : m_chunks m1 = m_chunks m) by reflexivity.
    assert (I1 : sinv h (moved p i m1 k ch r cnt)) by (apply (moved_inv h p i m m1 b k ch r cnt); assumption).
    assert (U1 : forall x, used (moved p i m1 k ch r cnt) x <-> used p x /\ x <> b).
    { intros x. destruct (N.eq_dec x b) as [->|Hx].
      - rewrite (moved_used_b h p i m m1 b k ch r cnt) by assumption. cbn [m_used m1]. tauto.
      - rewrite (moved_used h p i m m1 b k ch r cnt) by assumption. tauto. }
    destruct ((r =? 0) && (chunk_count <? cnt)) eqn:Eb0.
    + apply andb_true_iff in Eb0. destruct Eb0 as [Er0 _]. apply N.eqb_eq in Er0.
      assert (Hall : forall x, In x (c_blks ch) -> In x (m_free m ++ [b])).
      { intros x Hx. destruct (s_own _ _ Hp _ _ _ Ech Hx) as (kx & Ekx & Ecx). destruct (s_in _ _ Hp _ _ Em) as [H3 _]. assert (H4 : In x (m_free m ++ m_used m)) by (apply H3; exists kx, ch; rewrite Ecx; auto).
        rewrite <- Hp1 in H4. cbn [m_free m_used m1] in H4. apply in_app_or in H4. destruct H4 as [H4|H4]; [exact H4|]. exfalso. apply (uses_zero (c_blks ch) us) in Hx; [contradiction|congruence]. }
      destruct (chain_del_all_in (c_blks ch) (m_free m ++ [b])) as (fr & Efr); [rewrite Eb; apply blocks_nodup; exact Hi|exact Hall|]. rewrite Efr. cbn [obind].
      assert (Hcc : In (b_chunk k) (m_chunks m)) by (destruct (s_in _ _ Hp _ _ Em) as [_ H4]; apply H4; exists ch; auto).
      destruct (chain_del_in _ _ Hcc) as (cks & Ecks). rewrite Ecks. cbn [obind]. rewrite fold_set_blk.
      match goal with |- context [release ?q _] => set (p2 := q) end. pose proof (chain_del_all_perm _ _ _ Efr) as Pf. pose proof (chain_del_perm _ _ _ Ecks) as Pc.
      set (ch1 := mkCh r cnt (c_mgr ch) (c_blks ch) (c_size ch)).
      assert (D1 : chs (moved p i m1 k ch r cnt) (b_chunk k) = Some ch1) by (cbn [moved chs set_ch]; apply set_same).
      assert (D2 : forall c, chs p2 c = set (chs (moved p i m1 k ch r cnt)) (b_chunk k) None c).
      { intros c. cbn [p2 chs moved set_ch set_mgr]. unfold set. destruct (c =? b_chunk k); reflexivity. }
      assert (D3 : forall x, blks p2 x = set_all (blks (moved p i m1 k ch r cnt)) (c_blks ch1) None x) by reflexivity.
      assert (Et2 : tbl p2 = upd (tbl p) i (mkMgr fr us cks)) by reflexivity. assert (Et1 : tbl (moved p i m1 k ch r cnt) = upd (tbl p) i m1) by reflexivity.
      assert (D4 : length (tbl p2) = 35%nat) by (rewrite Et2, upd_length; exact (s_len _ _ Hp)).
      assert (D5 : forall j mj', nth_error (tbl p2) j = Some mj' -> exists mj, nth_error (tbl (moved p i m1 k ch r cnt)) j = Some mj /\ m_used mj' = m_used mj /\
        Permutation (m_free mj) ((if at_mgr (c_mgr ch1) j then c_blks ch1 else []) ++ m_free mj') /\ Permutation (m_chunks mj) ((if at_mgr (c_mgr ch1) j then [b_chunk k] else []) ++ m_chunks mj')).
      { intros j mj'. rewrite Et2, Et1, !nth_error_upd. cbn [ch1 c_mgr c_blks]. rewrite Eg. cbn [at_mgr]. destruct (Nat.eqb_spec i j) as [<-|Hj].
        - destruct (i <? length (tbl p))%nat; [|discriminate]. intros E. injection E as <-. exists m1. cbn [m_free m_used m_chunks m1 app]. repeat split; assumption.
        - intros E. exists mj'. repeat split; try assumption; reflexivity. }
      assert (D6 : Permutation (large (moved p i m1 k ch r cnt)) ((match c_mgr ch1 with None => [b_chunk k] | _ => [] end) ++ large p2)) by (cbn [ch1 c_mgr]; rewrite Eg; reflexivity).
      assert (D7 : Permutation h ((b_chunk k, c_size ch1) :: given h (Some (b_chunk k)))) by exact Ph.
      assert (I2 : sinv (given h (Some (b_chunk k))) p2) by (apply (drop_inv h _ (moved p i m1 k ch r cnt) p2 (b_chunk k) ch1); assumption).
      assert (Hc2 : cinv h l p2) by exact Hc.
      destruct (release_ok h l p2 (c_size ch) (b_chunk k) _ Hcap Hc2 Ph) as (u & Eu & Hu2). exists (release p2 (c_size ch)), (Some (b_chunk k)). rewrite Eu. split; [reflexivity|].
      unfold free_post. split; [apply sinv_used; exact I2|]. split; [exact Hu2|]. split; [reflexivity|]. split; [reflexivity|]. split.
      * intros x. rewrite used_set_used. rewrite (drop_used h (moved p i m1 k ch r cnt) p2 (b_chunk k) ch1) by assumption. rewrite U1. split; [tauto|]. intros H. split; [exact H|]. cbn [ch1 c_mgr]. rewrite Eg. discriminate.
      * split; [|intros a Ea; injection Ea as <-; apply in_map_iff; exists (b_chunk k, c_size ch); auto].
        intros x kx E. change (blks p2 x = Some kx) in E. apply (drop_blk_iff h (moved p i m1 k ch r cnt) p2 (b_chunk k) ch1) in E; try assumption. exact (proj2 E).
    + eexists. exists None. split; [reflexivity|]. unfold free_post. change (given h None) with h.
      change (set_ch (set_mgr p i (mkMgr (m_free m ++ [b]) us (m_chunks m))) (b_chunk k) (Some (mkCh r cnt (Some i) (c_blks ch) (c_size ch)))) with
        (set_ch (set_mgr p i m1) (b_chunk k) (Some (mkCh r cnt (Some i) (c_blks ch) (c_size ch)))).
      assert (Emv : set_ch (set_mgr p i m1) (b_chunk k) (Some (mkCh r cnt (Some i) (c_blks ch) (c_size ch))) = moved p i m1 k ch r cnt) by (unfold moved; rewrite Eg; reflexivity). rewrite Emv.
      split; [exact I1|]. split; [exact Hc|]. split; [reflexivity|]. split; [reflexivity|]. split; [exact U1|]. split; [|discriminate]. intros x kx E. exact E.
  - destruct Hk as [El Es]. rewrite El. destruct (s_large _ _ Hp) as [Hld Hl]. assert (Hlc : In (b_chunk k) (large p)) by (apply Hl; exists ch; auto).
    destruct (chain_del_in _ _ Hlc) as (ls & Els). rewrite Els. cbn [obind]. cbv zeta. pose proof (chain_del_perm _ _ _ Els) as Pl. destruct W as [Ebl Hsz].
    assert (Eb' : b = b_chunk k + 88) by (rewrite Ebl in Hb; destruct Hb as [<-|[]]; reflexivity).
    match goal with |- context [release ?q _] => set (p2 := q) end.
    assert (D2 : forall c, chs p2 c = set (chs p) (b_chunk k) None c) by reflexivity.
    assert (D3 : forall x, blks p2 x = set_all (blks p) (c_blks ch) None x). { intros x. rewrite Ebl, <- Eb'. reflexivity. }
    assert (D4 : length (tbl p2) = 35%nat) by exact (s_len _ _ Hp).
    assert (D5 : forall j mj', nth_error (tbl p2) j = Some mj' -> exists mj, nth_error (tbl p) j = Some mj /\ m_used mj' = m_used mj /\
        Permutation (m_free mj) ((if at_mgr (c_mgr ch) j then c_blks ch else []) ++ m_free mj') /\ Permutation (m_chunks mj) ((if at_mgr (c_mgr ch) j then [b_chunk k] else []) ++ m_chunks mj')).
    { intros j mj' E. exists mj'. rewrite Eg. repeat split; try assumption; reflexivity. }
    assert (D6 : Permutation (large p) ((match c_mgr ch with None => [b_chunk k] | _ => [] end) ++ large p2)) by (rewrite Eg; exact Pl).
    assert (I2 : sinv (given h (Some (b_chunk k))) p2) by (apply (drop_inv h _ p p2 (b_chunk k) ch); assumption).
    assert (Hc2 : cinv h l p2) by exact Hc.
    destruct (release_ok h l p2 (c_size ch) (b_chunk k) _ Hcap Hc2 Ph) as (u & Eu & Hu2). exists (release p2 (c_size ch)), (Some (b_chunk k)). rewrite Eu. split; [reflexivity|].
    unfold free_post. split; [apply sinv_used; exact I2|]. split; [exact Hu2|]. split; [reflexivity|]. split; [reflexivity|]. split.
    + intros x. rewrite used_set_used. rewrite (drop_used h p p2 (b_chunk k) ch) by assumption. rewrite Ebl, <- Eb'. cbn [In]. split; [intros [H1 H2]; split; [exact H1|]; intros ->; apply H2; auto|]. intros [H1 H2]. split; [exact H1|]. intros _ [C|[]]. congruence.
    + split; [|intros a Ea; injection Ea as <-; apply in_map_iff; exists (b_chunk k, c_size ch); auto].
      intros x kx E. change (blks p2 x = Some kx) in E. apply (drop_blk_iff h p p2 (b_chunk k) ch) in E; try assumption. exact (proj2 E).
Qed.

(** ** The histories *)
Record inv (cap : N) (v : view) (p : pool) : Prop := {
  i_cap : capacity p = cap;
  i_s : sinv (held v) p;
  i_c : cinv (held v) (lost v) p;
  i_dup : NoDup (map l_ptr (live v));
  i_live : forall b, In b (live v) -> exists a k, l_ptr b = a + 56 /\ used p a /\ blks p a = Some k /\ l_len b <= b_size k;
  i_used : forall a, used p a -> In (a + 56) (map l_ptr (live v));
  i_mem : forall b i x, In b (live v) -> i < l_len b -> l_bytes b i = Some x -> mem p (l_ptr b + i) = x }.

Lemma used_mem p f x : used (set_mem p f) x <-> used p x.
Proof. reflexivity. Qed.
Lemma inv_alloc cap v p p' o size nb f : inv cap v p -> alloc_post (held v) (lost v) p size p' o ->
  match o_ptr o with None => f = mem p | Some q => (forall x, ~ (q <= x < q + size) -> f x = mem p x) /\ forall i x, i < size -> nb i = Some x -> f (q + i) = x end ->
  inv cap (mkView (match o_ptr o with Some q => mkLb q size nb :: live v | None => live v end) (asked (held v) o) (lost v + failed o)) (set_mem p' f).
Proof.
  intros I (Hb & Hcap & Hmem & Hs & Hc & Hold & Hptr) Hf. destruct (o_ptr o) as [q|].
  - destruct Hptr as (b & k & -> & Ek & Hsz & Hnu & Hu). destruct Hf as [Hf1 Hf2]. constructor; cbn [live held lost].
    + rewrite <- (i_cap _ _ _ I). exact Hcap.
    + apply sinv_mem, Hs.
    + exact Hc.
    + cbn [map l_ptr]. constructor; [|exact (i_dup _ _ _ I)]. intros C. apply in_map_iff in C. destruct C as (x & Ex & Hx). destruct (i_live _ _ _ I _ Hx) as (a & ka & Ea & Hua & _). apply Hnu.
      replace b with a by (clear - Ex Ea; lia). exact Hua.
    + intros x [<-|Hx]; cbn [l_ptr l_len].
      * exists b, k. split; [reflexivity|]. split; [apply used_mem, Hu; auto|]. auto.
      * destruct (i_live _ _ _ I _ Hx) as (a & ka & Ea & Hua & Eka & Hl). exists a, ka. split; [exact Ea|]. split; [apply used_mem, Hu; auto|]. split; [apply Hold; exact Eka|exact Hl].
    + intros a Ha. apply used_mem, Hu in Ha. cbn [map l_ptr In]. destruct Ha as [->|Ha]; [auto|]. right. apply (i_used _ _ _ I), Ha.
    + intros x i y [<-|Hx]; cbn [l_ptr l_len l_bytes mem set_mem]; [apply Hf2|]. intros Hi E. destruct (i_live _ _ _ I _ Hx) as (a & ka & Ea & Hua & Eka & Hl).
      rewrite Hf1; [apply (i_mem _ _ _ I); assumption|]. assert (Hne : a <> b) by (intros ->; contradiction).
      pose proof (blk_apart _ _ _ _ _ _ Hs (Hold _ _ Eka) Ek Hne) as Ha. unfold apart in Ha. rewrite Ea. clear - Ha Hl Hi Hsz. lia.
  - destruct Hptr as [Hu _]. subst f. constructor; cbn [live held lost].
    + rewrite <- (i_cap _ _ _ I). exact Hcap.
    + apply sinv_mem, Hs.
    + exact Hc.
    + exact (i_dup _ _ _ I).
    + intros x Hx. destruct (i_live _ _ _ I _ Hx) as (a & ka & Ea & Hua & Eka & Hl). exists a, ka. split; [exact Ea|]. split; [apply used_mem, Hu; auto|]. split; [apply Hold; exact Eka|exact Hl].
    + intros a Ha. apply used_mem, Hu in Ha. apply (i_used _ _ _ I), Ha.
    + exact (i_mem _ _ _ I).
Qed.
Lemma without_in q l x : In x (without q l) <-> In x l /\ l_ptr x <> q.
Proof. unfold without. rewrite filter_In, negb_true_iff, N.eqb_neq. reflexivity. Qed.
Lemma without_dup q l : NoDup (map l_ptr l) -> NoDup (map l_ptr (without q l)).
Proof.
  unfold without. induction l as [|x l IH]; cbn [map filter]; [auto|]. intros H. inversion H as [|? ? Hn H']; subst. destruct (negb (l_ptr x =? q)); [|apply IH, H']. cbn [map]. constructor; [|apply IH, H'].
  intros C. apply Hn. apply in_map_iff in C. destruct C as (y & Ey & Hy). apply filter_In in Hy. apply in_map_iff. exists y. tauto.
Qed.
Lemma inv_free cap v p q : inv cap v p -> cap < 2 ^ 62 -> In q (map l_ptr (live v)) ->
  exists p' back, alloc_free p q = Some (p', back) /\ inv cap (mkView (without q (live v)) (given (held v) back) (lost v)) p' /\ mem p' = mem p /\ (forall a, back = Some a -> In a (map fst (held v))).
Proof.
  intros I Hcap Hq. apply in_map_iff in Hq. destruct Hq as (b & <- & Hb). destruct (i_live _ _ _ I _ Hb) as (a & k & Ea & Hu & Ek & Hl). rewrite Ea.
  rewrite <- (i_cap _ _ _ I) in Hcap. destruct (free_ok _ _ _ _ (i_s _ _ _ I) (i_c _ _ _ I) Hcap Hu) as (p' & back & E & Hs & Hc & Hcp & Hm & Hus & Hbl & Hbk).
  exists p', back. split; [exact E|]. split; [|split; assumption]. constructor; cbn [live held lost].
  - rewrite <- (i_cap _ _ _ I). exact Hcp.
  - exact Hs.
  - exact Hc.
  - apply without_dup, (i_dup _ _ _ I).
  - intros x Hx. apply without_in in Hx. destruct Hx as [Hx Hne]. destruct (i_live _ _ _ I _ Hx) as (c & kc & Ec & Huc & Ekc & Hlc). exists c, kc. split; [exact Ec|].
    assert (Hu' : used p' c). { apply Hus. split; [exact Huc|]. intros ->. apply Hne. exact Ec. } split; [exact Hu'|]. split; [|exact Hlc].
    destruct (used_exists _ _ Hu') as (k' & Ek'). rewrite Ek'. apply Hbl in Ek'. congruence.
  - intros c Hc'. apply Hus in Hc'. destruct Hc' as [Hc1 Hc2]. pose proof (i_used _ _ _ I _ Hc1) as H. apply in_map_iff in H. destruct H as (x & Ex & Hx). apply in_map_iff. exists x. split; [exact Ex|]. apply without_in. split; [exact Hx|]. clear - Ex Hc2. lia.
  - intros x i y Hx. apply without_in in Hx. rewrite Hm. apply (i_mem _ _ _ I). tauto.
Qed.

Lemma block_at_ok q l b : NoDup (map l_ptr l) -> In b l -> l_ptr b = q -> block_at q l = Some b.
Proof.
  unfold block_at. induction l as [|x l IH]; cbn [map In find]; [contradiction|]. intros Hd Hb E. inversion Hd as [|? ? Hn Hd']; subst. destruct Hb as [->|Hb]; [rewrite N.eqb_refl; reflexivity|].
  destruct (N.eqb_spec (l_ptr x) (l_ptr b)) as [E|_]; [|apply IH; auto]. exfalso. apply Hn. rewrite E. apply in_map. exact Hb.
Qed.
Lemma out_eta o a b c : o_ptr o = a -> o_ask o = b -> o_back o = c -> o = mkOut a b c.
Proof. destruct o. cbn. congruence. Qed.

(** Why a request is refused. *)
Definition refused (cap : N) (r : out) : Prop := (exists n, o_ask r = Some (n, None)) \/ (cap <> 0 /\ o_ask r = None).
Definition step_post (cap : N) (v : view) (o : op) (p' : pool) (r : out) : Prop :=
  inv cap (view_step v o r) p' /\ (forall a, o_back r = Some a -> In a (map fst (asked (held v) r))) /\ (asks o -> o_ptr r = None -> refused cap r).

Lemma set_mem_id p : set_mem p (mem p) = p.
Proof. destruct p. reflexivity. Qed.
Lemma step_ok cap v p o : inv cap v p -> cap < 2 ^ 62 -> legal v o -> exists p' r, p_step p o = Some (p', r) /\ step_post cap v o p' r.
Proof.
  intros I Hcap L. assert (Hcap' : capacity p < 2 ^ 62) by (rewrite (i_cap _ _ _ I); exact Hcap). destruct o as [size ans|size ans|q size ans|q|a w]; cbn [legal p_step] in *.
  - destruct L as [Hs Hf]. destruct (alloc_m_ok _ _ _ _ _ (i_s _ _ _ I) (i_c _ _ _ I) Hcap' Hs Hf) as (p' & r & E & Post). exists p', r. split; [exact E|].
    assert (Hf2 : match o_ptr r with None => mem p = mem p | Some q => (forall x, ~ (q <= x < q + size) -> mem p x = mem p x) /\ forall i x, i < size -> (fun _ : N => @None N) i = Some x -> mem p (q + i) = x end).
    { destruct (o_ptr r); [|reflexivity]. split; [reflexivity|discriminate]. }
    pose proof (inv_alloc _ _ _ _ _ _ _ _ I Post Hf2) as I2. destruct Post as (Hb & _ & Hm & _ & _ & _ & Hp).
    rewrite <- Hm, set_mem_id in I2. unfold step_post, view_step. rewrite Hb. split; [exact I2|]. split; [discriminate|]. intros _ Hn. rewrite Hn in Hp. rewrite <- (i_cap _ _ _ I). exact (proj2 Hp).
  - destruct L as [Hs Hf]. unfold alloc_c. destruct (alloc_m_ok _ _ _ _ _ (i_s _ _ _ I) (i_c _ _ _ I) Hcap' Hs Hf) as (p' & r & E & Post). rewrite E. cbn [obind].
    set (f := match o_ptr r with None => mem p | Some q => fill (mem p) q size 0 end).
    assert (Hf2 : match o_ptr r with None => f = mem p | Some q => (forall x, ~ (q <= x < q + size) -> f x = mem p x) /\ forall i x, i < size -> (fun _ : N => Some 0) i = Some x -> f (q + i) = x end).
    { unfold f. destruct (o_ptr r) as [q|]; [|reflexivity]. unfold fill. split.
      - intros x Hx. destruct (N.leb_spec q x), (N.ltb_spec x (q + size)); cbn [andb]; try reflexivity. exfalso. apply Hx. split; assumption.
      - intros i x Hi Ex. injection Ex as <-. destruct (N.leb_spec q (q + i)), (N.ltb_spec (q + i) (q + size)); cbn [andb]; try reflexivity; exfalso; clear - H H0 Hi; lia. }
    pose proof (inv_alloc _ _ _ _ _ _ _ _ I Post Hf2) as I2. destruct Post as (Hb & _ & Hm & _ & _ & _ & Hp).
    destruct (o_ptr r) as [q|] eqn:Eq.
    + eexists; eexists. split; [reflexivity|]. unfold step_post, view_step. rewrite Hb, Eq, Hm. split; [exact I2|]. split; [discriminate|]. discriminate.
    + eexists; eexists. split; [reflexivity|]. unfold f in I2. rewrite <- Hm, set_mem_id in I2. unfold step_post, view_step. rewrite Hb, Eq. split; [exact I2|]. split; [discriminate|]. intros _ _. rewrite <- (i_cap _ _ _ I). exact (proj2 Hp).
  - destruct L as (Hs & Hf & Hq). unfold alloc_re. destruct (N.eqb_spec size 0) as [Hz|Hz].
    + destruct (inv_free _ _ _ _ I Hcap Hq) as (p' & back & E & I2 & _ & Hbk). rewrite E. cbn [obind fst snd]. eexists; eexists. split; [reflexivity|]. unfold step_post, view_step. cbn [o_ask o_back o_ptr live_step asked].
      subst size. cbn [N.eqb]. rewrite N.add_0_r. split; [exact I2|]. split; [exact Hbk|]. intros C. exfalso. apply C. reflexivity.
    + pose proof Hq as Hq'. apply in_map_iff in Hq'. destruct Hq' as (b & Eq & Hb). destruct (i_live _ _ _ I _ Hb) as (a & k & Ea & Hu & Ek & Hl). rewrite Eq in Ea.
      change blk_hdr with 56. destruct (N.ltb_spec q 56) as [Hx|_]; [exfalso; clear - Hx Ea; lia|]. replace (q - 56) with a by (clear - Ea; lia). rewrite Ek. cbn [obind].
      pose proof (block_at_ok q (live v) b (i_dup _ _ _ I) Hb Eq) as Eat. set (nb := fun i => if i <? l_len b then l_bytes b i else None).
      destruct (N.leb_spec size (b_size k)) as [Hle|Hgt].
      * eexists; eexists. split; [reflexivity|]. unfold step_post, view_step. cbn [o_ask o_back o_ptr live_step asked]. rewrite (proj2 (N.eqb_neq _ _) Hz), Eat. rewrite N.add_0_r. split; [|split; discriminate]. fold nb. constructor; cbn [live held lost].
        -- exact (i_cap _ _ _ I).
        -- exact (i_s _ _ _ I).
        -- exact (i_c _ _ _ I).
        -- cbn [map l_ptr]. constructor; [|apply without_dup, (i_dup _ _ _ I)]. intros C. apply in_map_iff in C. destruct C as (x & Ex & Hx). apply without_in in Hx. tauto.
        -- intros x [<-|Hx]; [exists a, k; cbn [l_ptr l_len]; auto|]. apply without_in in Hx. apply (i_live _ _ _ I). tauto.
        -- intros c Hc. apply (i_used _ _ _ I) in Hc. cbn [map l_ptr In]. destruct (N.eq_dec q (c + 56)) as [E|E]; [left; exact E|]. right. apply in_map_iff in Hc. destruct Hc as (x & Ex & Hx). apply in_map_iff. exists x. split; [exact Ex|]. apply without_in. split; [exact Hx|congruence].
        -- intros x i y [<-|Hx]; cbn [l_ptr l_len l_bytes].
           ++ intros Hi. unfold nb. destruct (N.ltb_spec i (l_len b)) as [Hi'|_]; [|discriminate]. intros E. rewrite <- Eq. apply (i_mem _ _ _ I _ _ _ Hb Hi' E).
           ++ apply without_in in Hx. apply (i_mem _ _ _ I). tauto.
      * destruct (alloc_m_ok _ _ _ _ _ (i_s _ _ _ I) (i_c _ _ _ I) Hcap' Hs Hf) as (p' & r & E & Post). rewrite E. cbn [obind]. assert (Hm : mem p' = mem p) by apply Post. destruct (o_ptr r) as [q'|] eqn:Eq'.
        -- set (f := copy (mem p) q' q (b_size k)).
           assert (Hf2 : match o_ptr r with None => f = mem p | Some q' => (forall x, ~ (q' <= x < q' + size) -> f x = mem p x) /\ forall i x, i < size -> nb i = Some x -> f (q' + i) = x end).
           { rewrite Eq'. unfold f, copy. split.
             - intros x Hx. destruct (N.leb_spec q' x), (N.ltb_spec x (q' + b_size k)); cbn [andb]; try reflexivity. exfalso. apply Hx. clear - H H0 Hgt. lia.
             - intros i x Hi. unfold nb. destruct (N.ltb_spec i (l_len b)) as [Hi'|_]; [|discriminate]. intros Ex. destruct (N.leb_spec q' (q' + i)), (N.ltb_spec (q' + i) (q' + b_size k)); cbn [andb]; try (exfalso; clear - H H0 Hi' Hl; lia).
               replace (q + (q' + i - q')) with (l_ptr b + i) by (rewrite Eq; clear; lia). apply (i_mem _ _ _ I _ _ _ Hb Hi' Ex). }
           pose proof (inv_alloc _ _ _ _ _ _ nb _ I Post Hf2) as I2. rewrite Eq' in I2. rewrite Hm. fold f.
           assert (Hq2 : In q (map l_ptr (live (mkView (mkLb q' size nb :: live v) (asked (held v) r) (lost v + failed r))))) by (right; exact Hq).
           destruct (inv_free _ _ _ _ I2 Hcap Hq2) as (p2 & back & E2 & I3 & _ & Hbk). cbn [live held lost] in *. rewrite E2. cbn [obind fst snd]. eexists; eexists. split; [reflexivity|].
           unfold step_post, view_step. cbn [o_ask o_back o_ptr live_step]. rewrite (proj2 (N.eqb_neq _ _) Hz), Eat. fold nb. split; [|split; [exact Hbk|discriminate]].
           assert (Hne : q' <> q). { pose proof (i_dup _ _ _ I2) as Hd. cbn [live map l_ptr] in Hd. inversion Hd as [|? ? Hn _]; subst. intros ->. contradiction. }
           assert (Ew : without q (mkLb q' size nb :: live v) = mkLb q' size nb :: without q (live v)). { unfold without. cbn [filter l_ptr]. rewrite (proj2 (N.eqb_neq _ _) Hne). reflexivity. }
           rewrite Ew in I3. exact I3.
        -- assert (Hf2 : match o_ptr r with None => mem p = mem p | Some q => (forall x, ~ (q <= x < q + size) -> mem p x = mem p x) /\ forall i x, i < size -> nb i = Some x -> mem p (q + i) = x end) by (rewrite Eq'; reflexivity).
           pose proof (inv_alloc _ _ _ _ _ _ _ _ I Post Hf2) as I2. destruct Post as (Hbk & _ & _ & _ & _ & _ & Hp). rewrite Eq' in I2, Hp. rewrite <- Hm, set_mem_id in I2.
           exists p', r. split; [reflexivity|]. unfold step_post, view_step. cbn [live_step]. rewrite (proj2 (N.eqb_neq _ _) Hz), Eq', Hbk. split; [exact I2|]. split; [discriminate|]. intros _ _. rewrite <- (i_cap _ _ _ I). exact (proj2 Hp).
  - destruct (inv_free _ _ _ _ I Hcap L) as (p' & back & E & I2 & _ & Hbk). rewrite E. cbn [obind fst snd]. eexists; eexists. split; [reflexivity|]. unfold step_post, view_step. cbn [o_ask o_back o_ptr live_step asked asks].
    rewrite N.add_0_r. split; [exact I2|]. split; [exact Hbk|]. contradiction.
  - eexists; eexists. split; [reflexivity|]. unfold step_post, view_step. cbn [o_ask o_back o_ptr live_step asked asks]. rewrite N.add_0_r. split; [|split; [discriminate|contradiction]]. constructor; cbn [live held lost].
    + exact (i_cap _ _ _ I).
    + apply sinv_mem, (i_s _ _ _ I).
    + exact (i_c _ _ _ I).
    + rewrite map_map. exact (i_dup _ _ _ I).
    + intros x Hx. apply in_map_iff in Hx. destruct Hx as (y & <- & Hy). exact (i_live _ _ _ I _ Hy).
    + intros c Hc. rewrite map_map. exact (i_used _ _ _ I _ Hc).
    + intros x i y Hx. apply in_map_iff in Hx. destruct Hx as (z & <- & Hz). cbn [poke l_ptr l_len l_bytes mem set_mem]. intros Hi. unfold fill.
      destruct (N.eqb_spec (l_ptr z + i) a) as [E|E].
      * intros Ey. injection Ey as <-. destruct (N.leb_spec a (l_ptr z + i)), (N.ltb_spec (l_ptr z + i) (a + 1)); cbn [andb]; try reflexivity; exfalso; clear - H H0 E; lia.
      * intros Ey. destruct (N.leb_spec a (l_ptr z + i)), (N.ltb_spec (l_ptr z + i) (a + 1)); cbn [andb]; try (apply (i_mem _ _ _ I); assumption). exfalso. clear - H H0 E. lia.
Qed.
Lemma inv_new cap f : inv cap (mkView [] [] 0) (pool_new cap f).
Proof.
  assert (Hm : forall i m, nth_error (tbl (pool_new cap f)) i = Some m -> m = mkMgr [] [] []) by (intros i m E; apply nth_error_In, repeat_spec in E; exact E).
  constructor; cbn [live held lost]; try solve [intros ? []|intros ? ? ? []|constructor|reflexivity].
  - constructor; try solve [discriminate|intros ? ? []|intros ? ? ? ? []].
    + reflexivity.
    + intros i m E. apply Hm in E. subst m. split; constructor.
    + intros i m E. apply Hm in E. subst m. split; intros x; (split; [intros []|]); [intros (k & ch & E & _); discriminate|intros (ch & E & _); discriminate].
    + split; [constructor|]. intros c. split; [intros []|]. intros (ch & E & _). discriminate.
    + constructor.
    + intros c n. split; [intros []|]. intros (ch & E & _). discriminate.
  - intros Hc. cbn [in_used pool_new total fold_right]. split; [reflexivity|]. apply N.le_0_l.
  - intros a (k & ch & E & _). discriminate.
Qed.
Lemma reach_inv cap v p : cap < 2 ^ 62 -> reach cap v p -> inv cap v p.
Proof.
  intros Hc. induction 1 as [f|v p o p' r R IH L E]; [apply inv_new|]. destruct (step_ok _ _ _ _ IH Hc L) as (p2 & r2 & E2 & H). rewrite E in E2. injection E2 as <- <-. exact (proj1 H).
Qed.

(** ** What a pool asks for, and what it gives back in the end *)
Lemma take_some p i o p' r : take p i o = Some (p', r) -> exists q, r = o (Some q).
Proof.
  unfold take. destruct (nth_error (tbl p) i) as [m|]; cbn [obind]; [|discriminate]. destruct (rev (m_free m)) as [|b l]; [discriminate|]. destruct (chain_del b (m_free m)) as [fr|]; cbn [obind]; [|discriminate]. cbv zeta.
  destruct (blks _ b) as [k|]; cbn [obind]; [|discriminate]. destruct (chs _ (b_chunk k)) as [ch|]; cbn [obind]; [|discriminate]. intros E. injection E as _ <-. eauto.
Qed.
Lemma oom_ask p i o p' r : oom p i o = Some (p', r) -> exists q, r = o q.
Proof. unfold oom. destruct (find _ _); intros E; [apply take_some in E; destruct E as [q ->]; eauto|]. injection E as _ <-. eauto. Qed.
(** The bytes needed below for a request that no block can serve. *)
Definition need_of (size : N) : N := match class_of size with Some i => chunk_size i | None => align4 ((size + blk_hdr + chunk_hdr) mod 2 ^ 64) end.
Lemma alloc_m_asks p size ans p' r n x : alloc_m p size ans = Some (p', r) -> o_ask r = Some (n, x) -> n = need_of size.
Proof.
  unfold alloc_m, need_of. destruct (class_of size) as [i|].
  - destruct (nth_error (tbl p) i) as [m|]; cbn [obind]; [|discriminate]. destruct (m_free m).
    + cbv zeta. destruct (reserve p (chunk_size i)) as [p1|].
      * destruct (ans (chunk_size i)).
        -- intros E. apply take_some in E. destruct E as [q ->]. cbn [o_ask]. congruence.
        -- intros E. apply oom_ask in E. destruct E as [q ->]. cbn [o_ask]. congruence.
      * intros E. apply oom_ask in E. destruct E as [q ->]. cbn [o_ask]. discriminate.
    + intros E. apply take_some in E. destruct E as [q ->]. cbn [o_ask]. discriminate.
  - unfold large_m. cbv zeta. destruct (reserve p _); [|intros E; injection E as _ <-; discriminate]. destruct (ans _); intros E; injection E as _ <-; cbn [o_ask]; intros E; injection E as <- _; reflexivity.
Qed.
Lemma alloc_m_full p size ans p' r : alloc_m p size ans = Some (p', r) -> o_ptr r = None -> o_ask r = None -> capacity p <> 0 /\ capacity p < need_of size + in_used p.
Proof.
  assert (Hres : forall n, reserve p n = None -> capacity p <> 0 /\ capacity p < n + in_used p).
  { intros n. unfold reserve. destruct (N.eqb_spec (capacity p) 0); [discriminate|]. destruct (N.ltb_spec (capacity p) ((n + in_used p) mod 2 ^ 64)) as [H|]; [|discriminate]. intros _. split; [assumption|].
    eapply N.lt_le_trans; [exact H|]. apply N.mod_le. discriminate. }
  unfold alloc_m, need_of. destruct (class_of size) as [i|].
  - destruct (nth_error (tbl p) i) as [m|]; cbn [obind]; [|discriminate]. destruct (m_free m).
    + cbv zeta. destruct (reserve p (chunk_size i)) as [p1|] eqn:Er.
      * destruct (ans (chunk_size i)).
        -- intros E. apply take_some in E. destruct E as [q ->]. discriminate.
        -- intros E. apply oom_ask in E. destruct E as [q ->]. discriminate.
      * intros _ _ _. apply Hres, Er.
    + intros E. apply take_some in E. destruct E as [q ->]. discriminate.
  - unfold large_m. cbv zeta. destruct (reserve p _) eqn:Er; [|intros _ _ _; apply Hres; exact Er]. destruct (ans _); intros E; injection E as _ <-; discriminate.
Qed.
Lemma destroyed_perm h p : sinv h p -> Permutation (destroyed p) (map fst h).
Proof.
  intros Hp. assert (Hd : forall k l, (forall i m, nth_error l i = Some m -> nth_error (tbl p) (k + i) = Some m) -> NoDup (concat (map m_chunks l)) /\ forall c, In c (concat (map m_chunks l)) <-> exists i m, nth_error l i = Some m /\ In c (m_chunks m)).
  { intros k l. revert k. induction l as [|m l IH]; intros k H; cbn [map concat].
    - split; [constructor|]. intros c. split; [intros []|]. intros (i & m & E & _). destruct i; discriminate.
    - assert (H' : forall i m0, nth_error l i = Some m0 -> nth_error (tbl p) (S k + i) = Some m0) by (intros i m0 E; rewrite Nat.add_succ_comm; apply (H (S i)); exact E).
      destruct (IH (S k) H') as [Hn Hi]. assert (Em : nth_error (tbl p) k = Some m) by (rewrite <- (Nat.add_0_r k); apply (H 0%nat); reflexivity). split.
      + apply nodup_app; [apply (s_dup _ _ Hp _ _ Em)|exact Hn|]. intros c Hc C. apply Hi in C. destruct C as (i & m2 & E2 & Hc2). apply H' in E2.
        apply (proj2 (s_in _ _ Hp _ _ Em)) in Hc. apply (proj2 (s_in _ _ Hp _ _ E2)) in Hc2. destruct Hc as (ch & Ec & Eg), Hc2 as (ch2 & Ec2 & Eg2). rewrite Ec in Ec2. injection Ec2 as <-. rewrite Eg in Eg2. injection Eg2 as E. clear - E. lia.
      + intros c. rewrite in_app_iff, Hi. split.
        * intros [Hc|(i & m2 & E & Hc)]; [exists 0%nat, m; auto|exists (S i), m2; auto].
        * intros ([|i] & m2 & E & Hc); [injection E as <-; auto|right; exists i, m2; auto]. }
  destruct (Hd 0%nat (tbl p) (fun i m E => E)) as [Hn Hi]. destruct (s_large _ _ Hp) as [Hln Hl]. unfold destroyed. apply NoDup_Permutation.
  - apply nodup_app; [exact Hn|exact Hln|]. intros c Hc C. apply Hi in Hc. destruct Hc as (i & m & Em & Hc). apply (proj2 (s_in _ _ Hp _ _ Em)) in Hc. apply Hl in C. destruct Hc as (ch & Ec & Eg), C as (ch2 & Ec2 & Eg2). congruence.
  - exact (s_once _ _ Hp).
  - intros c. rewrite in_app_iff, Hi, Hl. split.
    + intros [(i & m & Em & Hc)|(ch & Ec & _)].
      * apply (proj2 (s_in _ _ Hp _ _ Em)) in Hc. destruct Hc as (ch & Ec & _). apply in_map_iff. exists (c, c_size ch). split; [reflexivity|]. apply (s_held _ _ Hp). eauto.
      * apply in_map_iff. exists (c, c_size ch). split; [reflexivity|]. apply (s_held _ _ Hp). eauto.
    + intros Hc. apply in_map_iff in Hc. destruct Hc as ([c' n] & <- & Hc). apply (s_held _ _ Hp) in Hc. destruct Hc as (ch & Ec & _). cbn [fst]. destruct (c_mgr ch) as [i|] eqn:Eg; [left|right; eauto].
      pose proof (s_ch _ _ Hp _ _ Ec) as W. unfold wf_chunk in W. rewrite Eg in W. destruct (mgr_at _ _ i Hp (proj1 W)) as (m & Em). exists i, m. split; [exact Em|]. apply (proj2 (s_in _ _ Hp _ _ Em)). eauto.
Qed.

(** ** The statements *)
Lemma blocks_ok cap v p : inv cap v p ->
  NoDup (map l_ptr (live v)) /\
  (forall b, In b (live v) -> exists c n, In (c, n) (held v) /\ c + 144 <= l_ptr b /\ l_ptr b + l_len b <= c + n) /\
  (forall b b', In b (live v) -> In b' (live v) -> l_ptr b <> l_ptr b' -> apart (l_ptr b) (l_len b) (l_ptr b') (l_len b')) /\
  (forall b i x, In b (live v) -> i < l_len b -> l_bytes b i = Some x -> mem p (l_ptr b + i) = x).
Proof.
  intros I. split; [exact (i_dup _ _ _ I)|]. split; [|split; [|exact (i_mem _ _ _ I)]].
  - intros b Hb. destruct (i_live _ _ _ I _ Hb) as (a & k & Ea & _ & Ek & Hl). destruct (blk_place _ _ _ _ (i_s _ _ _ I) Ek) as (n & Hn & H1 & H2). exists (b_chunk k), n. split; [exact Hn|]. clear - Ea Hl H1 H2. lia.
  - intros b b' Hb Hb' Hne. destruct (i_live _ _ _ I _ Hb) as (a & k & Ea & _ & Ek & Hl). destruct (i_live _ _ _ I _ Hb') as (a' & k' & Ea' & _ & Ek' & Hl').
    assert (Hn : a <> a') by (intros ->; apply Hne; congruence). pose proof (blk_apart _ _ _ _ _ _ (i_s _ _ _ I) Ek Ek' Hn) as H. unfold apart in *. clear - Ea Ea' H Hl Hl'. lia.
Qed.
Lemma aligned_ok cap v p : inv cap v p -> (forall c n, In (c, n) (held v) -> c mod 8 = 0) -> forall b, In b (live v) -> l_ptr b mod 8 = 0.
Proof.
  intros I Ha b Hb. destruct (i_live _ _ _ I _ Hb) as (a & k & Ea & _ & Ek & _). pose proof (i_s _ _ _ I) as Hp. destruct (s_blk _ _ Hp _ _ Ek) as (ch & Ec & Hbl & _).
  assert (Hc : b_chunk k mod 8 = 0) by (apply (Ha _ (c_size ch)); apply (s_held _ _ Hp); eauto). pose proof (s_ch _ _ Hp _ _ Ec) as W. unfold wf_chunk in W. rewrite Ea. destruct (c_mgr ch) as [i|].
  - destruct W as (Hi & Eb & _). rewrite Eb in Hbl. apply blocks_in in Hbl; [|exact Hi]. destruct Hbl as (n & _ & ->). destruct (sizes i Hi) as (_ & _ & H8 & _).
    apply N.mod_divide in Hc; [|discriminate]. apply N.mod_divide in H8; [|discriminate]. destruct Hc as [x ->], H8 as [y ->]. apply N.mod_divide; [discriminate|]. exists (x + 11 + n * (7 + y) + 7). clear. lia.
  - destruct W as [Eb _]. rewrite Eb in Hbl. destruct Hbl as [<-|[]]. apply N.mod_divide in Hc; [|discriminate]. destruct Hc as [x ->]. apply N.mod_divide; [discriminate|]. exists (x + 18). clear. lia.
Qed.
Lemma class_waste size i : class_of size = Some i -> 16 < size -> 2 * class_size i <= 3 * (size - 1).
Proof.
  intros E Hs. apply class_of_ok in E. destruct E as (Hi & Hsz & Hmin). destruct i as [|i]; [exfalso; change (class_size 0) with 16 in Hsz; clear - Hs Hsz; lia|].
  assert (H : class_size i < size). { destruct (N.lt_ge_cases (class_size i) size) as [|C]; [assumption|]. apply Hmin in C; [exfalso; clear - C; lia|clear - Hi; lia]. }
  assert (T : forallb (fun i => 2 * class_size (S i) <=? 3 * class_size i) (seq 0 34) = true) by (vm_compute; reflexivity).
  rewrite forallb_forall in T. specialize (T i (proj2 (in_seq 34 0 i) ltac:(clear - Hi; lia))). apply N.leb_le in T. clear - T H. lia.
Qed.
Lemma class_of_some size : size <= 2 ^ 21 -> exists i, class_of size = Some i.
Proof. intros H. destruct (class_of size) as [i|] eqn:E; [eauto|]. apply class_of_none in E. exfalso. apply N.le_ngt in H. contradiction. Qed.
Lemma find_map_seq size i : forall n a, (a <= i < a + n)%nat -> size <= class_size i -> (forall j, (a <= j < i)%nat -> class_size j < size) ->
  find (fun c => size <=? c) (map class_size (seq a n)) = Some (class_size i).
Proof.
  induction n as [|n IH]; intros a Hi Hs Hlt; [exfalso; lia|]. cbn [seq map find]. destruct (Nat.eq_dec a i) as [->|Hn].
  - rewrite (proj2 (N.leb_le _ _) Hs). reflexivity.
  - assert (H : class_size a < size) by (apply Hlt; lia). rewrite (proj2 (N.leb_gt _ _) H). apply IH; [lia|exact Hs|]. intros j Hj. apply Hlt. lia.
Qed.
Lemma classes_ok : classes = map class_size (seq 0 35).
Proof. vm_compute. reflexivity. Qed.
Lemma class_for_ok size : class_for size = option_map class_size (class_of size).
Proof.
  unfold class_for. rewrite classes_ok. destruct (class_of size) as [i|] eqn:E; cbn [option_map].
  - apply class_of_ok in E. destruct E as (Hi & Hs & Hm). apply find_map_seq; [lia|exact Hs|]. intros j Hj. destruct (N.lt_ge_cases (class_size j) size) as [|C]; [assumption|]. apply Hm in C; [exfalso|]; lia.
  - apply class_of_none in E. destruct (find _ _) as [c|] eqn:F; [|reflexivity]. exfalso. apply find_some in F. destruct F as [Hc Hle]. apply N.leb_le in Hle. apply in_map_iff in Hc. destruct Hc as (i & <- & Hi). apply in_seq in Hi.
    destruct (sizes i ltac:(lia)) as (_ & H & _). clear - E Hle H. revert E Hle H. generalize (2 ^ 21). intros; lia.
Qed.
Lemma need_ok size : size < 2 ^ 63 -> need_of size = need size.
Proof.
  intros Hs. unfold need_of, need. rewrite class_for_ok. destruct (class_of size) as [i|] eqn:E; cbn [option_map].
  - apply class_of_ok in E. destruct (sizes i (proj1 E)) as (_ & _ & _ & _ & H). exact H.
  - unfold align4. change blk_hdr with 56. change chunk_hdr with 88. change (2 ^ 63) with 9223372036854775808 in Hs. change (2 ^ 64) with 18446744073709551616.
    rewrite (N.mod_small (size + 56 + 88)) by (clear - Hs; lia). rewrite N.mod_small by (clear - Hs; lia). rewrite N.shiftl_mul_pow2, N.shiftr_div_pow2. change (2 ^ 2) with 4. rewrite N.mul_comm. f_equal. f_equal. clear. lia.
Qed.

(** Each call with the answer it gives. *)
Lemma reach_step_ok cap v p o p' r : cap < 2 ^ 62 -> reach cap v p -> legal v o -> p_step p o = Some (p', r) -> step_post cap v o p' r.
Proof. intros Hc R L E. destruct (step_ok _ _ _ _ (reach_inv _ _ _ Hc R) Hc L) as (p2 & r2 & E2 & H). rewrite E in E2. injection E2 as <- <-. exact H. Qed.
Lemma step_asks p o p' r n x : p_step p o = Some (p', r) -> o_ask r = Some (n, x) -> n = need_of (request o).
Proof.
  destruct o as [size ans|size ans|q size ans|q|a w]; cbn [p_step request].
  - apply alloc_m_asks.
  - unfold alloc_c. destruct (alloc_m p size ans) as [[p1 r1]|] eqn:E; cbn [obind]; [|discriminate]. destruct (o_ptr r1); intros E2; injection E2 as _ <-; apply (alloc_m_asks _ _ _ _ _ _ _ E).
  - unfold alloc_re. destruct (size =? 0). { destruct (alloc_free p q); cbn [obind]; [|discriminate]. intros E. injection E as _ <-. discriminate. }
    destruct (q <? blk_hdr); [discriminate|]. destruct (blks p (q - blk_hdr)) as [k|]; cbn [obind]; [|discriminate]. destruct (size <=? b_size k). { intros E. injection E as _ <-. discriminate. }
    destruct (alloc_m p size ans) as [[p1 r1]|] eqn:E; cbn [obind]; [|discriminate]. destruct (o_ptr r1).
    + destruct (alloc_free _ q); cbn [obind]; [|discriminate]. intros E2. injection E2 as _ <-. cbn [o_ask]. apply (alloc_m_asks _ _ _ _ _ _ _ E).
    + intros E2. injection E2 as _ <-. apply (alloc_m_asks _ _ _ _ _ _ _ E).
  - destruct (alloc_free p q); cbn [obind]; [|discriminate]. intros E. injection E as _ <-. discriminate.
  - intros E. injection E as _ <-. discriminate.
Qed.
Lemma step_full p o p' r : p_step p o = Some (p', r) -> asks o -> o_ptr r = None -> o_ask r = None -> capacity p <> 0 /\ capacity p < need_of (request o) + in_used p.
Proof.
  destruct o as [size ans|size ans|q size ans|q|a w]; cbn [p_step request asks]; try contradiction.
  - intros E _. apply (alloc_m_full _ _ _ _ _ E).
  - unfold alloc_c. destruct (alloc_m p size ans) as [[p1 r1]|] eqn:E; cbn [obind]; [|discriminate]. destruct (o_ptr r1); intros E2; injection E2 as _ <-; intros _; apply (alloc_m_full _ _ _ _ _ E).
  - unfold alloc_re. intros E Hz. revert E. rewrite (proj2 (N.eqb_neq _ _) Hz). destruct (q <? blk_hdr); [discriminate|]. destruct (blks p (q - blk_hdr)) as [k|]; cbn [obind]; [|discriminate].
    destruct (size <=? b_size k). { intros E. injection E as _ <-. discriminate. }
    destruct (alloc_m p size ans) as [[p1 r1]|] eqn:E; cbn [obind]; [|discriminate]. destruct (o_ptr r1) eqn:Eo.
    + destruct (alloc_free _ q); cbn [obind]; [|discriminate]. intros E2. injection E2 as _ <-. discriminate.
    + intros E2. injection E2 as _ <-. apply (alloc_m_full _ _ _ _ _ E).
Qed.

(** ** A new chunk is asked for only when every block of the class is in use *)
Lemma alloc_m_asks_full p size ans p' r n x i : alloc_m p size ans = Some (p', r) -> o_ask r = Some (n, x) -> class_of size = Some i -> exists m, nth_error (tbl p) i = Some m /\ m_free m = [].
Proof.
  unfold alloc_m. intros E Ea Ec. rewrite Ec in E. destruct (nth_error (tbl p) i) as [m|]; cbn [obind] in E; [|discriminate]. exists m. split; [reflexivity|]. destruct (m_free m) as [|b l]; [reflexivity|]. apply take_some in E. destruct E as [q ->]. discriminate.
Qed.
Lemma step_asks_full p o p' r n x i : p_step p o = Some (p', r) -> o_ask r = Some (n, x) -> class_of (request o) = Some i -> exists m, nth_error (tbl p) i = Some m /\ m_free m = [].
Proof.
  destruct o as [size ans|size ans|q size ans|q|a w]; cbn [p_step request].
  - apply alloc_m_asks_full.
  - unfold alloc_c. destruct (alloc_m p size ans) as [[p1 r1]|] eqn:E; cbn [obind]; [|discriminate]. destruct (o_ptr r1); intros E2; injection E2 as _ <-; apply (alloc_m_asks_full _ _ _ _ _ _ _ _ E).
  - unfold alloc_re. destruct (size =? 0). { destruct (alloc_free p q); cbn [obind]; [|discriminate]. intros E. injection E as _ <-. discriminate. }
    destruct (q <? blk_hdr); [discriminate|]. destruct (blks p (q - blk_hdr)) as [k|]; cbn [obind]; [|discriminate]. destruct (size <=? b_size k). { intros E. injection E as _ <-. discriminate. }
    destruct (alloc_m p size ans) as [[p1 r1]|] eqn:E; cbn [obind]; [|discriminate]. destruct (o_ptr r1).
    + destruct (alloc_free _ q); cbn [obind]; [|discriminate]. intros E2. injection E2 as _ <-. cbn [o_ask]. apply (alloc_m_asks_full _ _ _ _ _ _ _ _ E).
    + intros E2. injection E2 as _ <-. apply (alloc_m_asks_full _ _ _ _ _ _ _ _ E).
  - destruct (alloc_free p q); cbn [obind]; [|discriminate]. intros E. injection E as _ <-. discriminate.
  - intros E. injection E as _ <-. discriminate.
Qed.
Lemma reuse_ok cap v p o p' r n x : inv cap v p -> p_step p o = Some (p', r) -> request o <= 393216 -> o_ask r = Some (n, x) ->
  forall c k, In (c, n) (held v) -> k < 4 -> In (c + 144 + k * ((n - 88) / 4)) (map l_ptr (live v)).
Proof.
  intros I E Hr Ea c k Hc Hk. pose proof (i_s _ _ _ I) as Hp. destruct (class_of_some (request o)) as (i & Ei); [eapply N.le_trans; [exact Hr|discriminate]|].
  destruct (step_asks_full _ _ _ _ _ _ _ E Ea Ei) as (m & Em & Ef). pose proof (step_asks _ _ _ _ _ _ E Ea) as En. unfold need_of in En. rewrite Ei in En. apply class_of_ok in Ei. destruct Ei as (Hi & Hsz & Hmin).
  destruct (sizes i Hi) as (_ & _ & _ & _ & Hcs). assert (Hsm : class_size i <= 393216). { assert (i <= 29)%nat by (apply Hmin; [lia|exact Hr]). apply (class_le i 29); lia. }
  apply (s_held _ _ Hp) in Hc. destruct Hc as (ch & Ech & Es). pose proof (s_ch _ _ Hp _ _ Ech) as W. unfold wf_chunk in W. destruct (c_mgr ch) as [j|] eqn:Eg.
  - destruct W as (Hj & Eb & Esz & _). destruct (sizes j Hj) as (_ & _ & _ & _ & Hcj). assert (Eij : class_size i = class_size j) by (clear - En Es Esz Hcs Hcj; lia).
    assert (Ej : j = i). { destruct (Nat.lt_trichotomy i j) as [L|[L|L]]; [pose proof (class_lt i j L Hj); exfalso; clear - H Eij; lia|symmetry; exact L|pose proof (class_lt j i L Hi); exfalso; clear - H Eij; lia]. } subst j.
    assert (Hb : In (c + 88 + k * (56 + class_size i)) (c_blks ch)) by (rewrite Eb; apply blocks_in; [exact Hi|]; exists k; auto).
    destruct (s_own _ _ Hp _ _ _ Ech Hb) as (kb & Ek & Eck). assert (Hu : In (c + 88 + k * (56 + class_size i)) (m_free m ++ m_used m)).
    { apply (proj1 (s_in _ _ Hp _ _ Em)). exists kb, ch. rewrite Eck. auto. }
    rewrite Ef in Hu. cbn [app] in Hu. replace ((n - 88) / 4) with (56 + class_size i) by (replace (n - 88) with ((56 + class_size i) * 4) by (clear - En Hcs; lia); rewrite N.div_mul by discriminate; reflexivity).
    replace (c + 144 + k * (56 + class_size i)) with (c + 88 + k * (56 + class_size i) + 56) by (generalize (k * (56 + class_size i)); clear; intros; lia). apply (i_used _ _ _ I). exists kb, ch. split; [exact Ek|]. rewrite Eck, Eg. split; [exact Ech|]. eauto.
  - destruct W as [_ Hbig]. exfalso. clear - Hbig Es En Hcs Hsm. lia.
Qed.

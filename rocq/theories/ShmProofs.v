(** The pools in shared memory: proofs. *)
Require Import List Arith NArith Bool Permutation Lia ZifyBool ZifyNat ZifyN.
Require Import Verif.Base Verif.AllocModel Verif.AllocSpec Verif.EndianProofs Verif.ShmModel Verif.ShmSpec.
Import ListNotations.
Open Scope N_scope.

(** ** Bits *)
Definition bitm (m : list N) (k : N) : bool := N.testbit (nth (N.to_nat (k / 8)) m 255) (7 - k mod 8).
Lemma bit_pos b i m : (i <= 7)%nat -> bitm m (8 * N.of_nat b + 7 - N.of_nat i) = N.testbit (nth b m 255) (N.of_nat i).
Proof.
  intros Hi. unfold bitm. replace (8 * N.of_nat b + 7 - N.of_nat i) with ((7 - N.of_nat i) + N.of_nat b * 8) by lia.
  rewrite N.div_add, N.mod_add by discriminate. rewrite N.div_small, N.mod_small by lia. rewrite N.add_0_l, Nat2N.id. f_equal. lia.
Qed.
Lemma bit_out m k : 8 * N.of_nat (length m) <= k -> bitm m k = true.
Proof.
  intros H. unfold bitm. pose proof (N.div_mod k 8 ltac:(discriminate)) as Hd. pose proof (N.mod_lt k 8 ltac:(discriminate)) as Hm.
  rewrite nth_overflow by (clear - H Hd Hm; lia). revert Hm. generalize (k mod 8). clear. intros j Hj. assert (E : j = 0 \/ j = 1 \/ j = 2 \/ j = 3 \/ j = 4 \/ j = 5 \/ j = 6 \/ j = 7) by lia.
  intuition subst; reflexivity.
Qed.
Lemma nth_upd A (l : list A) i x j d : nth j (upd l i x) d = if (j =? i)%nat && (i <? length l)%nat then x else nth j l d.
Proof.
  destruct (Nat.ltb_spec i (length l)) as [Hl|Hl].
  - rewrite andb_true_r. destruct (Nat.eqb_spec j i) as [->|Hn].
    + erewrite nth_error_nth; [reflexivity|]. apply nth_error_upd_eq. exact Hl.
    + destruct (nth_error l j) as [y|] eqn:E.
      * rewrite (nth_error_nth _ _ _ E). apply nth_error_nth. rewrite nth_error_upd. destruct (Nat.eqb_spec i j); [congruence|exact E].
      * apply nth_error_None in E. rewrite !nth_overflow; [reflexivity|exact E|rewrite upd_length; exact E].
  - rewrite andb_false_r. f_equal. apply nth_error_ext. intros k. rewrite nth_error_upd. destruct (Nat.eqb_spec i k) as [->|]; [|reflexivity]. destruct (Nat.ltb_spec k (length l)); [lia|]. symmetry. apply nth_error_None. lia.
Qed.
Lemma pos_div_mod k : k = 8 * (k / 8) + 7 - (7 - k mod 8) /\ 7 - k mod 8 <= 7.
Proof. pose proof (N.div_mod k 8 ltac:(discriminate)) as Hd. pose proof (N.mod_lt k 8 ltac:(discriminate)) as Hm. clear - Hd Hm. lia. Qed.

Section Mark.
Variables (f : N -> N -> N) (v : bool).
Hypothesis Hf : forall c i j, N.testbit (f c (N.shiftl 1 i)) j = if i =? j then v else N.testbit c j.
Lemma mark_ok : forall n m b i, (i <= 7)%nat -> 8 * N.of_nat b + 7 - N.of_nat i + N.of_nat n <= 8 * N.of_nat (length m) ->
  exists m', mark f n m b i = Some m' /\ length m' = length m /\
    forall k, bitm m' k = if (8 * N.of_nat b + 7 - N.of_nat i <=? k) && (k <? 8 * N.of_nat b + 7 - N.of_nat i + N.of_nat n) then v else bitm m k.
Proof.
  induction n as [|n IH]; intros m b i Hi Hl; cbn [mark].
  - exists m. split; [reflexivity|]. split; [reflexivity|]. intros k. destruct (N.leb_spec (8 * N.of_nat b + 7 - N.of_nat i) k), (N.ltb_spec k (8 * N.of_nat b + 7 - N.of_nat i + N.of_nat 0)); cbn [andb]; try reflexivity. exfalso. lia.
  - assert (Hb : (b < length m)%nat) by lia. destruct (nth_error m b) as [c|] eqn:Ec; [|apply nth_error_None in Ec; lia]. cbn [obind]. cbv zeta.
    set (m1 := upd m b (f c (N.shiftl 1 (N.of_nat i)))). assert (L1 : length m1 = length m) by apply upd_length.
    assert (B1 : forall k, bitm m1 k = if k =? 8 * N.of_nat b + 7 - N.of_nat i then v else bitm m k).
    { intros k. destruct (pos_div_mod k) as [Ek Hk]. set (kb := N.to_nat (k / 8)) in *. set (ki := N.to_nat (7 - k mod 8)) in *.
      assert (Ek' : k = 8 * N.of_nat kb + 7 - N.of_nat ki) by (unfold kb, ki; clear - Ek Hk; lia). assert (Hki : (ki <= 7)%nat) by (unfold ki; clear - Hk; lia). clearbody kb ki. clear Ek Hk. subst k.
      rewrite !bit_pos by exact Hki. unfold m1. rewrite nth_upd. rewrite (proj2 (Nat.ltb_lt _ _) Hb), andb_true_r. destruct (Nat.eqb_spec kb b) as [->|Hn].
      - rewrite (nth_error_nth _ _ _ Ec), Hf. destruct (N.eqb_spec (N.of_nat i) (N.of_nat ki)), (N.eqb_spec (8 * N.of_nat b + 7 - N.of_nat ki) (8 * N.of_nat b + 7 - N.of_nat i)); try reflexivity; exfalso; clear - n0 e Hki Hi; lia.
      - destruct (N.eqb_spec (8 * N.of_nat kb + 7 - N.of_nat ki) (8 * N.of_nat b + 7 - N.of_nat i)); [exfalso; clear - e Hn Hki Hi; lia|reflexivity]. }
    destruct i as [|i].
    + destruct (IH m1 (S b) 7%nat) as (m' & E & L & B); [lia|rewrite L1; clear - Hl; lia|]. exists m'. split; [exact E|]. split; [congruence|]. intros k. rewrite B, B1.
      destruct (N.leb_spec (8 * N.of_nat (S b) + 7 - N.of_nat 7) k), (N.ltb_spec k (8 * N.of_nat (S b) + 7 - N.of_nat 7 + N.of_nat n)), (N.eqb_spec k (8 * N.of_nat b + 7 - N.of_nat 0)), (N.leb_spec (8 * N.of_nat b + 7 - N.of_nat 0) k), (N.ltb_spec k (8 * N.of_nat b + 7 - N.of_nat 0 + N.of_nat (S n))); cbn [andb]; try reflexivity; exfalso; clear - H H0 H1 H2 n0 || clear - H H0 H1 H2 e; lia.
    + destruct (IH m1 b i) as (m' & E & L & B); [lia|rewrite L1; clear - Hl Hi; lia|]. exists m'. split; [exact E|]. split; [congruence|]. intros k. rewrite B, B1.
      destruct (N.leb_spec (8 * N.of_nat b + 7 - N.of_nat i) k), (N.ltb_spec k (8 * N.of_nat b + 7 - N.of_nat i + N.of_nat n)), (N.eqb_spec k (8 * N.of_nat b + 7 - N.of_nat (S i))), (N.leb_spec (8 * N.of_nat b + 7 - N.of_nat (S i)) k), (N.ltb_spec k (8 * N.of_nat b + 7 - N.of_nat (S i) + N.of_nat (S n))); cbn [andb]; try reflexivity; exfalso; lia.
Qed.
End Mark.
Lemma lor_bit c i j : N.testbit (N.lor c (N.shiftl 1 i)) j = if i =? j then true else N.testbit c j.
Proof. rewrite N.lor_spec, N.shiftl_1_l, N.pow2_bits_eqb. destruct (i =? j); [apply orb_true_r|apply orb_false_r]. Qed.
Lemma ldiff_bit c i j : N.testbit (N.ldiff c (N.shiftl 1 i)) j = if i =? j then false else N.testbit c j.
Proof. rewrite N.ldiff_spec, N.shiftl_1_l, N.pow2_bits_eqb. destruct (i =? j); [apply andb_false_r|apply andb_true_r]. Qed.

(** ** The search for a run of free units *)
Section Scan.
Variables (m0 : list N) (n : N).
Hypothesis Hn : 1 <= n.
Definition clear_run (k l : N) : Prop := forall i, k <= i < k + l -> bitm m0 i = false.
Definition no_run (pos : N) : Prop := forall t, t + n <= pos -> ~ clear_run t n.
Definition sinv_scan (pos : N) (st : option (nat * nat * N)) : Prop := no_run pos /\
  match st with
  | None => pos = 0 \/ bitm m0 (pos - 1) = true
  | Some (B, b, j) => (b <= 7)%nat /\ exists s, s = 8 * N.of_nat B + 7 - N.of_nat b /\ s + n = pos + j /\ 0 < j < n /\ clear_run s (n - j) /\ (s = 0 \/ bitm m0 (s - 1) = true)
  end.
Definition found (x : nat * nat) : Prop := (snd x <= 7)%nat /\ clear_run (8 * N.of_nat (fst x) + 7 - N.of_nat (snd x)) n.
Lemma bits_skip d : (d < 8)%nat -> skipn d [7; 6; 5; 4; 3; 2; 1; 0]%nat = (7 - d)%nat :: skipn (S d) [7; 6; 5; 4; 3; 2; 1; 0]%nat.
Proof. intros H. do 8 (destruct d as [|d]; [reflexivity|]). lia. Qed.
Lemma set_step pos st : sinv_scan pos st -> bitm m0 pos = true -> sinv_scan (pos + 1) None.
Proof.
  intros [Hr _] Hb. split; [|right; rewrite N.add_sub; exact Hb]. intros t Ht C. destruct (N.eq_dec (t + n) (pos + 1)) as [E|E]; [|apply (Hr t); [lia|exact C]].
  specialize (C pos ltac:(lia)). congruence.
Qed.
Lemma clear_step pos st B i : sinv_scan pos st -> pos = 8 * N.of_nat B + 7 - N.of_nat i -> (i <= 7)%nat -> bitm m0 pos = false ->
  let '(s, j) := match st with None => ((B, i), n) | Some x => x end in
  if j - 1 =? 0 then found s else sinv_scan (pos + 1) (Some (s, j - 1)).
Proof.
  intros [Hr Hs] Hp Hi Hb. destruct (match st with None => _ | _ => _ end) as [s j] eqn:E.
  assert (H : (snd s <= 7)%nat /\ exists a, a = 8 * N.of_nat (fst s) + 7 - N.of_nat (snd s) /\ a + n = pos + j /\ 0 < j <= n /\ clear_run a (n - j) /\ (a = 0 \/ bitm m0 (a - 1) = true)).
  { destruct st as [[[B' b'] j']|].
    - injection E as <- <-. destruct Hs as (H1 & a & H2 & H3 & H4 & H5 & H6). cbn [fst snd]. split; [exact H1|]. exists a. split; [exact H2|]. split; [exact H3|]. split; [lia|]. split; assumption.
    - injection E as <- <-. cbn [fst snd]. split; [exact Hi|]. exists pos. split; [exact Hp|]. split; [reflexivity|]. split; [lia|]. split; [|exact Hs]. intros x Hx. exfalso. lia. }
  clear E Hs. destruct H as (H1 & a & H2 & H3 & H4 & H5 & H6). assert (H7 : clear_run a (n - (j - 1))).
  { intros x Hx. destruct (N.eq_dec x pos) as [->|Hne]; [exact Hb|]. apply H5. lia. }
  destruct (N.eqb_spec (j - 1) 0) as [E|E].
  - split; [exact H1|]. rewrite <- H2. rewrite E, N.sub_0_r in H7. exact H7.
  - split.
    + intros t Ht C. destruct (N.eq_dec (t + n) (pos + 1)) as [Et|Et]; [|apply (Hr t); [lia|exact C]].
      destruct H6 as [->|H6]; [lia|]. destruct (N.eq_dec a 0) as [->|Ha]; [lia|]. assert (Hx : t <= a - 1 < t + n) by lia. specialize (C _ Hx). congruence.
    + destruct s as [B' b']. cbn [fst snd] in *. split; [exact H1|]. exists a. split; [exact H2|]. split; [lia|]. split; [lia|]. split; assumption.
Qed.
Lemma scan_bits_ok c B : nth B m0 255 = c -> forall d st, (d <= 8)%nat -> sinv_scan (8 * N.of_nat B + N.of_nat d) st ->
  match scan_bits c B n (skipn d [7; 6; 5; 4; 3; 2; 1; 0]%nat) st with
  | Some (s, 0) => found s
  | st => sinv_scan (8 * N.of_nat (S B)) st
  end.
Proof.
  intros Hc d. remember (8 - d)%nat as e eqn:He. revert d He. induction e as [|e IH]; intros d He st Hd Hs.
  - assert (d = 8)%nat by lia. subst d. cbn [skipn scan_bits]. replace (8 * N.of_nat B + N.of_nat 8) with (8 * N.of_nat (S B)) in Hs by lia.
    destruct st as [[[B' b'] j]|]; [|exact Hs]. destruct j as [|j]; [|exact Hs]. destruct Hs as (_ & _ & s & _ & _ & H & _). exfalso. lia.
  - rewrite bits_skip by lia. cbn [scan_bits]. assert (Ep : 8 * N.of_nat B + N.of_nat d = 8 * N.of_nat B + 7 - N.of_nat (7 - d)) by lia.
    assert (Eb : bitm m0 (8 * N.of_nat B + N.of_nat d) = N.testbit c (N.of_nat (7 - d))) by (rewrite Ep, bit_pos by lia; rewrite Hc; reflexivity).
    destruct (N.testbit c (N.of_nat (7 - d))) eqn:Et.
    + apply (IH (S d)); [lia|lia|]. replace (8 * N.of_nat B + N.of_nat (S d)) with (8 * N.of_nat B + N.of_nat d + 1) by lia. eapply set_step; eassumption.
    + pose proof (clear_step _ st B (7 - d)%nat Hs Ep ltac:(lia) Eb) as H. destruct (match st with None => _ | _ => _ end) as [s j]. destruct (N.eqb_spec (j - 1) 0) as [E|E].
      * rewrite E. exact H.
      * apply (IH (S d)); [lia|lia|]. replace (8 * N.of_nat B + N.of_nat (S d)) with (8 * N.of_nat B + N.of_nat d + 1) by lia. exact H.
Qed.
Lemma full_byte B : nth B m0 255 = 255 -> forall st, sinv_scan (8 * N.of_nat B) st -> sinv_scan (8 * N.of_nat (S B)) None.
Proof.
  intros Hc st Hs. assert (Hb : forall d, d < 8 -> bitm m0 (8 * N.of_nat B + d) = true).
  { intros d Hd. replace (8 * N.of_nat B + d) with (8 * N.of_nat B + 7 - N.of_nat (N.to_nat (7 - d))) by lia. rewrite bit_pos by lia. rewrite Hc, N2Nat.id. assert (E : d = 0 \/ d = 1 \/ d = 2 \/ d = 3 \/ d = 4 \/ d = 5 \/ d = 6 \/ d = 7) by lia. intuition subst; reflexivity. }
  replace (8 * N.of_nat (S B)) with (8 * N.of_nat B + 7 + 1) by lia. destruct Hs as [Hr _]. split.
  - intros t Ht C. destruct (N.le_gt_cases (t + n) (8 * N.of_nat B)) as [|Hx]; [apply (Hr t); assumption|]. assert (H : bitm m0 (t + n - 1) = false) by (apply C; lia).
    replace (t + n - 1) with (8 * N.of_nat B + (t + n - 1 - 8 * N.of_nat B)) in H by lia. rewrite Hb in H by lia. discriminate.
  - right. rewrite N.add_sub. apply Hb. reflexivity.
Qed.
Lemma scan_ok : forall m B st, m = skipn B m0 -> (B <= length m0)%nat -> sinv_scan (8 * N.of_nat B) st ->
  match scan n m B st with Some s => found s | None => no_run (8 * N.of_nat (length m0)) end.
Proof.
  induction m as [|c m IH]; intros B st Em HB Hs; cbn [scan].
  - assert (length m0 <= B)%nat. { destruct (Nat.le_gt_cases (length m0) B) as [|C]; [assumption|]. pose proof (f_equal (@length N) Em) as L. rewrite skipn_length in L. cbn [length] in L. lia. }
    replace (length m0) with B by lia. apply Hs.
  - assert (HB' : (B < length m0)%nat). { pose proof (f_equal (@length N) Em) as L. rewrite skipn_length in L. cbn [length] in L. lia. }
    assert (Hc : nth B m0 255 = c). { rewrite <- (firstn_skipn B m0), <- Em. rewrite app_nth2; rewrite firstn_length_le by lia; [|lia]. rewrite Nat.sub_diag. reflexivity. }
    assert (Em' : m = skipn (S B) m0). { replace (S B) with (B + 1)%nat by lia. clear - Em HB'. revert B Em HB'. induction m0 as [|x l IHl]; intros B Em HB'; [cbn in HB'; lia|]. destruct B as [|B]; cbn [skipn] in Em; [injection Em as _ Em; exact Em|]. cbn [Nat.add]. cbn [skipn]. apply IHl; [exact Em|cbn [length] in HB'; lia]. }
    destruct (N.eqb_spec c 255) as [E|E].
    + apply (IH (S B)); [exact Em'|lia|]. apply (full_byte B ltac:(congruence) st). exact Hs.
    + pose proof (scan_bits_ok c B Hc 0 st ltac:(lia)) as H. cbn [skipn] in H. rewrite N.add_0_r in H. specialize (H Hs).
      destruct (scan_bits c B n [7; 6; 5; 4; 3; 2; 1; 0]%nat st) as [[s [|j]]|]; [exact H| |]; (apply (IH (S B)); [exact Em'|lia|exact H]).
Qed.
Lemma scan_found : match scan n m0 0 None with Some s => found s | None => no_run (8 * N.of_nat (length m0)) end.
Proof. apply scan_ok; [reflexivity|lia|]. split; [|left; reflexivity]. intros t Ht. exfalso. lia. Qed.
End Scan.

(** ** Counting free units *)
Definition clear_count (m : list N) : nat := length (filter (fun k => negb (bitm m (N.of_nat k))) (seq 0 (8 * length m))).
Lemma filter_true A (f : A -> bool) l : (forall x, In x l -> f x = true) -> filter f l = l.
Proof. induction l as [|x l IH]; intros H; [reflexivity|]. cbn [filter]. rewrite (H x (or_introl eq_refl)), IH; [reflexivity|]. intros y Hy. apply H. right. exact Hy. Qed.
Lemma filter_false A (f : A -> bool) l : (forall x, In x l -> f x = false) -> filter f l = [].
Proof. induction l as [|x l IH]; intros H; [reflexivity|]. cbn [filter]. rewrite (H x (or_introl eq_refl)). apply IH. intros y Hy. apply H. right. exact Hy. Qed.
Lemma count_range (f g : nat -> bool) pos n len : (pos + n <= len)%nat ->
  (forall k, (pos <= k < pos + n)%nat -> f k = true /\ g k = false) -> (forall k, ~ (pos <= k < pos + n)%nat -> f k = g k) ->
  length (filter f (seq 0 len)) = (n + length (filter g (seq 0 len)))%nat.
Proof.
  intros Hl Hin Hout. replace len with (pos + (n + (len - pos - n)))%nat by lia. rewrite !seq_app, !filter_app, !app_length. cbn [Nat.add].
  rewrite (filter_true _ f (seq pos n)) by (intros k Hk; apply in_seq in Hk; apply Hin; lia). rewrite (filter_false _ g (seq pos n)) by (intros k Hk; apply in_seq in Hk; apply Hin; lia).
  rewrite (filter_ext_in f g (seq 0 pos)) by (intros k Hk; apply in_seq in Hk; apply Hout; lia). rewrite (filter_ext_in f g (seq (pos + n) (len - pos - n))) by (intros k Hk; apply in_seq in Hk; apply Hout; lia).
  rewrite seq_length. cbn [length]. lia.
Qed.
(** ** The list of segments *)
Lemma ML : N.of_nat map_len = 4096. Proof. vm_compute. reflexivity. Qed.
Fixpoint ordered (lo : N) (l : list seg) (hi : N) : Prop :=
  match l with [] => lo <= hi | s :: l => lo <= g_addr s /\ 4200 <= g_size s /\ ordered (g_addr s + g_size s) l hi end.
Lemma ordered_le : forall l lo hi, ordered lo l hi -> lo <= hi.
Proof. induction l as [|s l IH]; cbn [ordered]; intros lo hi H; [exact H|]. destruct H as (H1 & H2 & H3). apply IH in H3. lia. Qed.
Lemma ordered_weak l lo lo' hi : lo' <= lo -> ordered lo l hi -> ordered lo' l hi.
Proof. destruct l as [|s l]; cbn [ordered]; intros H H1; [lia|]. destruct H1 as (H1 & H2 & H3). repeat split; [lia|assumption|assumption]. Qed.
Lemma ordered_in : forall l lo hi s, ordered lo l hi -> In s l -> lo <= g_addr s /\ 4200 <= g_size s /\ g_addr s + g_size s <= hi.
Proof.
  induction l as [|t l IH]; cbn [ordered]; intros lo hi s H Hs; [contradiction|]. destruct H as (H1 & H2 & H3). destruct Hs as [<-|Hs].
  - apply ordered_le in H3. lia.
  - destruct (IH _ _ _ H3 Hs). lia.
Qed.
Lemma ordered_apart : forall l lo hi s t, ordered lo l hi -> In s l -> In t l -> s = t \/ apart (g_addr s) (g_size s) (g_addr t) (g_size t).
Proof.
  induction l as [|x l IH]; cbn [ordered]; intros lo hi s t H Hs Ht; [contradiction|]. destruct H as (H1 & H2 & H3). unfold apart in *.
  destruct Hs as [<-|Hs], Ht as [<-|Ht]; [left; reflexivity| | |eapply IH; eassumption].
  - right. left. apply (ordered_in _ _ _ _ H3 Ht).
  - right. right. apply (ordered_in _ _ _ _ H3 Hs).
Qed.
Lemma ordered_same l lo hi s t : ordered lo l hi -> In s l -> In t l -> g_addr s = g_addr t -> s = t.
Proof.
  intros H Hs Ht E. destruct (ordered_apart _ _ _ _ _ H Hs Ht) as [|[C|C]]; [assumption| |]; destruct (ordered_in _ _ _ _ H Hs), (ordered_in _ _ _ _ H Ht); exfalso; lia.
Qed.
Lemma ordered_upd : forall l lo hi i s s', ordered lo l hi -> nth_error l i = Some s -> g_addr s' = g_addr s -> g_size s' = g_size s -> ordered lo (upd l i s') hi.
Proof.
  induction l as [|x l IH]; intros lo hi [|i] s s' H E Ea Eg; cbn [nth_error upd ordered] in *; try discriminate.
  - injection E as ->. rewrite Ea, Eg. exact H.
  - destruct H as (H1 & H2 & H3). repeat split; [assumption|assumption|]. eapply IH; eassumption.
Qed.
Lemma ordered_remove : forall l lo hi i, ordered lo l hi -> ordered lo (remove_nth i l) hi.
Proof.
  induction l as [|x l IH]; intros lo hi [|i] H; cbn [remove_nth ordered] in *; try exact H; destruct H as (H1 & H2 & H3).
  - eapply ordered_weak; [|exact H3]. lia.
  - repeat split; [assumption|assumption|apply IH; assumption].
Qed.
Lemma diff_le a b : b <= a -> a < 2 ^ 62 -> diff a b = a - b.
Proof.
  intros H Ha. unfold diff. replace (a + 2 ^ 64 - b) with (a - b + 1 * 2 ^ 64) by (change (2 ^ 64) with 18446744073709551616; clear - H; lia).
  rewrite N.mod_add by (clear; discriminate). apply N.mod_small. change (2 ^ 64) with 18446744073709551616. change (2 ^ 62) with 4611686018427387904 in Ha. clear - H Ha. lia.
Qed.
Lemma place_ok cap size mk : cap < 2 ^ 62 -> 4200 <= size -> (forall a, g_addr (mk a) = a /\ g_size (mk a) = size) -> forall l lo, ordered lo l cap ->
  match place cap size mk lo l with
  | None => forall a, lo <= a -> a + size <= cap -> ~ forall s, In s l -> apart a size (g_addr s) (g_size s)
  | Some (l', i) => exists l1 l2 a, l = l1 ++ l2 /\ l' = l1 ++ mk a :: l2 /\ i = length l1 /\ lo <= a /\ a + size <= cap /\ ordered lo l' cap /\ forall s, In s l -> apart a size (g_addr s) (g_size s)
  end.
Proof.
  intros Hc Hz Hmk. induction l as [|t l IH]; intros lo Ho; cbn [place ordered] in *.
  - rewrite diff_le by (lia || assumption). destruct (N.ltb_spec (cap - lo) size) as [H|H].
    + intros a Ha Hb _. lia.
    + exists [], [], lo. destruct (Hmk lo) as [Ea Es]. repeat split; try lia; cbn [ordered app]; rewrite ?Ea, ?Es; try (clear - H Hz Ho; lia). contradiction.
  - destruct Ho as (H1 & H2 & H3). pose proof (ordered_le _ _ _ H3) as H4. rewrite diff_le by (exact H1 || (clear - H4 Hc; lia)).
    destruct (N.leb_spec size (g_addr t - lo)) as [H|H].
    + exists [], (t :: l), lo. destruct (Hmk lo) as [Ea Es]. split; [reflexivity|]. split; [reflexivity|]. split; [reflexivity|]. split; [lia|]. split; [clear - H H1 H2 H4; lia|]. split.
      * cbn [ordered app]. rewrite Ea, Es. repeat split; try assumption; clear - H H1 Hz; lia.
      * intros s [<-|Hs]; left; [clear - H H1; lia|]. pose proof (ordered_in _ _ _ _ H3 Hs) as [G _]. clear - G H H1. lia.
    + specialize (IH _ H3). destruct (place cap size mk (g_addr t + g_size t) l) as [[l' i]|]; cbn [obind].
      * destruct IH as (l1 & l2 & a & -> & -> & -> & G1 & G2 & G3 & G4). exists (t :: l1), l2, a. cbn [fst snd app length ordered]. repeat split; try assumption; try reflexivity; [clear - G1 H1; lia|]. intros s [<-|Hs]; [right; exact G1|apply G4; exact Hs].
      * intros a Ha Hb C. pose proof (C t (or_introl eq_refl)) as [D|D].
        -- clear - D H Ha. lia.
        -- apply (IH a D Hb). intros s Hs. apply C. right. exact Hs.
Qed.
Lemma find_ok size : forall l, match find_seg l size with
  | Some (i, x) => exists s, nth_error l i = Some s /\ allowed s size = Some x
  | None => forall s, In s l -> allowed s size = None
  end.
Proof.
  induction l as [|s l IH]; cbn [find_seg]; [contradiction|]. destruct (allowed s size) as [x|] eqn:E.
  - exists s. split; [reflexivity|exact E].
  - destruct (find_seg l size) as [[i x]|]; cbn [obind fst snd].
    + exact IH.
    + intros t [<-|Ht]; [exact E|apply IH; exact Ht].
Qed.

(** ** The invariant *)
Definition pos_of (k : sblk) : N := 8 * N.land (N.shiftr (k_pad k) 8) 65535 + 7 - N.land (k_pad k) 255.
Definition in_small (s : seg) (b : N) (k : sblk) : Prop :=
  b = g_addr s + 64 * pos_of k /\ N.land (k_pad k) 255 <= 7 /\ 65 <= pos_of k /\ pos_of k + units (k_size k) <= 32768.
Definition in_large (s : seg) (b : N) (k : sblk) : Prop := b = g_addr s + 4144 /\ k_size k + 4200 = g_size s.
Definition covers (k : sblk) (i : N) : Prop := pos_of k <= i < pos_of k + units (k_size k).
Record inv0 (cap : N) (segs : list seg) (blks : N -> option sblk) : Prop := {
  i_ord : ordered 2048 segs cap;
  i_blk : forall b k, blks b = Some k -> exists s, In s segs /\ g_addr s = k_seg k /\ if g_large s then in_large s b k else in_small s b k;
  i_dis : forall b k b' k' i, blks b = Some k -> blks b' = Some k' -> k_seg k = k_seg k' -> (forall s, In s segs -> g_addr s = k_seg k -> g_large s = false) -> covers k i -> covers k' i -> b = b';
  i_small : forall s, In s segs -> g_large s = false -> g_size s = 2097152 /\ length (g_map s) = map_len /\ g_base s = 32703 /\ g_nfree s = N.of_nat (clear_count (g_map s)) /\
     forall i, i < 32768 -> (bitm (g_map s) i = true <-> i < 65 \/ exists b k, blks b = Some k /\ k_seg k = g_addr s /\ covers k i);
  i_large : forall s, In s segs -> g_large s = true -> g_nfree s = 0 /\ exists b k, blks b = Some k /\ k_seg k = g_addr s
}.
Definition busy (segs : list seg) (blks : N -> option sblk) : Prop :=
  forall s, In s segs -> g_large s = false -> exists b k, blks b = Some k /\ k_seg k = g_addr s.
Lemma units_pos size : 1 <= units size.
Proof. unfold units, blk_hdr, unit. pose proof (N.div_le_mono 64 (size + 56 + 64 - 1) 64 ltac:(discriminate) ltac:(lia)) as H. change (64 / 64) with 1 in H. exact H. Qed.
Lemma units_le size : size + 56 <= 64 * units size.
Proof. unfold units, blk_hdr, unit. pose proof (N.div_mod (size + 56 + 64 - 1) 64 ltac:(discriminate)) as H. pose proof (N.mod_lt (size + 56 + 64 - 1) 64 ltac:(discriminate)). lia. Qed.
Lemma units_max size : size <= 1572864 -> units size <= 24577.
Proof. intros H. unfold units, blk_hdr, unit. change 24577 with ((1572864 + 56 + 64 - 1) / 64). apply N.div_le_mono; [discriminate|lia]. Qed.
Lemma small_seg_ok a : g_addr (small_seg a) = a /\ g_size (small_seg a) = 2097152 /\ g_large (small_seg a) = false /\ g_nfree (small_seg a) = 32703 /\ g_base (small_seg a) = 32703 /\
  length (g_map (small_seg a)) = map_len /\ forall k, bitm (g_map (small_seg a)) k = ((k <? 65) || (32768 <=? k)).
Proof.
  do 5 (split; [vm_compute; reflexivity|]). unfold small_seg. cbn [g_map]. cbv zeta.
  pose proof ML as M. destruct (mark_ok N.lor true lor_bit (N.to_nat hdr_units) (repeat 0 map_len) 0 7) as (m' & E & L & B); [lia|rewrite repeat_length, M; vm_compute; discriminate|].
  rewrite E. rewrite repeat_length in L. split; [exact L|]. intros k. rewrite B. change (8 * N.of_nat 0 + 7 - N.of_nat 7) with 0. change (N.of_nat (N.to_nat hdr_units)) with 65. rewrite N.add_0_l.
  destruct (N.leb_spec 0 k); [|lia]. cbn [andb]. destruct (k <? 65) eqn:E65; [reflexivity|]. cbn [orb]. destruct (N.leb_spec 32768 k) as [H1|H1].
  - apply bit_out. rewrite repeat_length, M. lia.
  - unfold bitm. rewrite (nth_indep _ 255 0), nth_repeat; [apply N.bits_0|]. rewrite repeat_length. pose proof (N.div_lt_upper_bound k 8 4096 ltac:(discriminate) ltac:(lia)). clear - M H0. lia.
Qed.
Lemma count_bitm m m' pos n : (forall k, bitm m' k = if (pos <=? k) && (k <? pos + n) then true else bitm m k) -> length m' = length m -> (forall k, pos <= k < pos + n -> bitm m k = false) ->
  pos + n <= 8 * N.of_nat (length m) -> N.of_nat (clear_count m) = n + N.of_nat (clear_count m').
Proof.
  intros B L C Hl. unfold clear_count. rewrite L.
  rewrite (count_range (fun k => negb (bitm m (N.of_nat k))) (fun k => negb (bitm m' (N.of_nat k))) (N.to_nat pos) (N.to_nat n)).
  - lia.
  - lia.
  - intros k Hk. rewrite B, C by lia. destruct (N.leb_spec pos (N.of_nat k)), (N.ltb_spec (N.of_nat k) (pos + n)); try lia. split; reflexivity.
  - intros k Hk. rewrite B. destruct (N.leb_spec pos (N.of_nat k)), (N.ltb_spec (N.of_nat k) (pos + n)); try reflexivity. exfalso. lia.
Qed.
Lemma small_count a : N.of_nat (clear_count (g_map (small_seg a))) = 32703.
Proof.
  destruct (small_seg_ok a) as (_ & _ & _ & _ & _ & L & B). pose proof ML as M.
  assert (H : N.of_nat (clear_count (repeat 0 map_len)) = 65 + N.of_nat (clear_count (g_map (small_seg a)))).
  { assert (Z : forall k, k < 32768 -> bitm (repeat 0 map_len) k = false).
    { intros k Hk. unfold bitm. rewrite (nth_indep _ 255 0), nth_repeat; [apply N.bits_0|]. rewrite repeat_length. pose proof (N.div_lt_upper_bound k 8 4096 ltac:(discriminate) ltac:(lia)). clear - M H. lia. }
    apply (count_bitm _ _ 0 65).
    - intros k. rewrite B. destruct (N.leb_spec 0 k); [|lia]. rewrite N.add_0_l. cbn [andb]. destruct (k <? 65); [reflexivity|]. cbn [orb]. destruct (N.leb_spec 32768 k); [|rewrite Z by assumption; reflexivity]. symmetry. apply bit_out. rewrite repeat_length, M. lia.
    - rewrite L, repeat_length. reflexivity.
    - intros k Hk. apply Z. lia.
    - rewrite repeat_length, M. vm_compute. discriminate. }
  assert (H0 : clear_count (repeat 0 map_len) = (8 * map_len)%nat).
  { unfold clear_count. rewrite repeat_length. rewrite filter_true; [apply seq_length|]. intros k Hk. apply in_seq in Hk. unfold bitm. rewrite (nth_indep _ 255 0), nth_repeat; [rewrite N.bits_0; reflexivity|].
    rewrite repeat_length. pose proof (N.div_lt_upper_bound (N.of_nat k) 8 (N.of_nat map_len) ltac:(discriminate) ltac:(lia)). clear - H0. lia. }
  rewrite H0 in H. clear - H M. lia.
Qed.

Lemma in_upd A (l : list A) i x y t : nth_error l i = Some x -> In t (upd l i y) -> t = y \/ In t l.
Proof.
  intros E H. apply In_nth_error in H. destruct H as [j H]. rewrite nth_error_upd in H. destruct (Nat.eqb_spec i j) as [->|].
  - destruct (j <? length l)%nat; [injection H as <-; left; reflexivity|discriminate].
  - right. eapply nth_error_In. exact H.
Qed.
Lemma upd_in A (l : list A) i x y : nth_error l i = Some x -> In y (upd l i y).
Proof. intros E. eapply nth_error_In with (n := i). apply nth_error_upd_eq. apply nth_error_Some. congruence. Qed.
Lemma in_upd_old A (l : list A) i x y t : nth_error l i = Some x -> In t l -> t = x \/ In t (upd l i y).
Proof.
  intros E H. apply In_nth_error in H. destruct H as [j H]. destruct (Nat.eq_dec i j) as [->|Hn]; [left; congruence|]. right. apply nth_error_In with (n := j). rewrite nth_error_upd. destruct (Nat.eqb_spec i j); [contradiction|exact H].
Qed.
Lemma pad_ok B b : B < 65536 -> b <= 7 -> let pad := N.lor (N.shiftl (N.land B 65535) 8) (N.land b 255) mod 2 ^ 30 in N.land (N.shiftr pad 8) 65535 = B /\ N.land pad 255 = b.
Proof.
  intros HB Hb. cbv zeta. change 65535 with (N.ones 16). change 255 with (N.ones 8). rewrite !N.land_ones. change (2 ^ 16) with 65536. change (2 ^ 8) with 256. rewrite (N.mod_small B) by exact HB. rewrite (N.mod_small b) by lia.
  rewrite (lor_add _ _ 8); [|change (2 ^ 8) with 256; lia|rewrite N.shiftl_mul_pow2; apply N.mod_mul; discriminate]. rewrite N.shiftl_mul_pow2. change (2 ^ 8) with 256.
  rewrite (N.mod_small (B * 256 + b)) by (change (2 ^ 30) with 1073741824; lia). rewrite N.shiftr_div_pow2. change (2 ^ 8) with 256. split.
  - rewrite N.div_add_l by discriminate. rewrite N.div_small by lia. rewrite N.add_0_r. apply N.mod_small. exact HB.
  - rewrite N.add_comm, N.mod_add by discriminate. apply N.mod_small. lia.
Qed.
Lemma set_eq A (f : N -> option A) a x b : set f a x b = if b =? a then x else f b. Proof. reflexivity. Qed.
Lemma add_ex (blks : N -> option sblk) a k0 (P : sblk -> Prop) : blks a = None -> ((exists b k, set blks a (Some k0) b = Some k /\ P k) <-> P k0 \/ exists b k, blks b = Some k /\ P k).
Proof.
  intros Ha. split.
  - intros (b & k & E & H). rewrite set_eq in E. destruct (N.eqb_spec b a) as [->|]; [left; congruence|right; eauto].
  - intros [H|(b & k & E & H)].
    + exists a, k0. rewrite set_eq, N.eqb_refl. auto.
    + exists b, k. rewrite set_eq. destruct (N.eqb_spec b a) as [->|]; [congruence|auto].
Qed.
Lemma del_ex (blks : N -> option sblk) a (P : sblk -> Prop) : ((exists b k, set blks a None b = Some k /\ P k) <-> exists b k, b <> a /\ blks b = Some k /\ P k).
Proof.
  split; intros (b & k & H); exists b, k; rewrite set_eq in *; destruct (N.eqb_spec b a) as [->|]; intuition (congruence || auto).
Qed.
(** Where the blocks lie. *)
Lemma blk_place cap segs blks b k : inv0 cap segs blks -> blks b = Some k ->
  exists s, In s segs /\ g_addr s = k_seg k /\ g_addr s + 4144 <= b /\ b + 56 + k_size k <= g_addr s + g_size s /\ (if g_large s then in_large s b k else in_small s b k).
Proof.
  intros I E. destruct (i_blk _ _ _ I _ _ E) as (s & Hs & Ea & H). exists s. split; [exact Hs|]. split; [exact Ea|]. destruct (g_large s) eqn:L.
  - destruct H as [H1 H2]. split; [lia|]. split; [lia|]. split; assumption.
  - destruct (i_small _ _ _ I s Hs L) as (Hg & _). destruct H as (H1 & H2 & H3 & H4). pose proof (units_le (k_size k)). split; [lia|]. split; [lia|]. repeat split; assumption.
Qed.
Lemma blk_apart cap segs blks b k b' k' : inv0 cap segs blks -> blks b = Some k -> blks b' = Some k' -> b <> b' -> apart b (56 + k_size k) b' (56 + k_size k').
Proof.
  intros I E E' Hn. destruct (blk_place _ _ _ _ _ I E) as (s & Hs & Ea & H1 & H2 & H3). destruct (blk_place _ _ _ _ _ I E') as (s' & Hs' & Ea' & H1' & H2' & H3').
  destruct (ordered_apart _ _ _ _ _ (i_ord _ _ _ I) Hs Hs') as [<-|[C|C]]; [|left; lia|right; lia].
  destruct (g_large s) eqn:L; [destruct H3, H3'; congruence|]. destruct H3 as (A1 & A2 & A3 & A4), H3' as (B1 & B2 & B3 & B4).
  assert (D : forall i, covers k i -> covers k' i -> False).
  { intros i C C'. apply Hn. eapply (i_dis _ _ _ I); try eassumption; [congruence|]. intros t Ht Et. rewrite (ordered_same _ _ _ t s (i_ord _ _ _ I) Ht Hs ltac:(congruence)). exact L. }
  pose proof (units_le (k_size k)). pose proof (units_le (k_size k')). pose proof (units_pos (k_size k)). pose proof (units_pos (k_size k')). unfold apart.
  destruct (N.le_gt_cases (pos_of k + units (k_size k)) (pos_of k')); [left; lia|]. destruct (N.le_gt_cases (pos_of k' + units (k_size k')) (pos_of k)); [right; lia|].
  exfalso. destruct (N.le_gt_cases (pos_of k) (pos_of k')); [apply (D (pos_of k'))|apply (D (pos_of k))]; unfold covers; lia.
Qed.

(** ** Handing out units *)
Lemma carve_ok p i s B b size : inv0 (sh_cap p) (sh_segs p) (sh_blks p) -> nth_error (sh_segs p) i = Some s -> g_large s = false -> found (g_map s) (units size) (B, b) ->
  exists s' k a, carve p i (B, b) size = Some (mkShm (sh_cap p) (upd (sh_segs p) i s') (set (sh_blks p) a (Some k)) (sh_mem p), a + 56) /\ k_size k = size /\ k_seg k = g_addr s /\
    sh_blks p a = None /\ g_addr s' = g_addr s /\ g_large s' = false /\ inv0 (sh_cap p) (upd (sh_segs p) i s') (set (sh_blks p) a (Some k)).
Proof.
  destruct p as [cap segs blks mem]. cbn [sh_cap sh_segs sh_blks sh_mem]. intros I Ei L [Hb Hc]. cbn [fst snd] in *. pose proof (nth_error_In _ _ Ei) as Hs.
  destruct (i_small _ _ _ I s Hs L) as (Hg & Hm & Hba & Hnf & Hbit). pose proof ML as M. pose proof (units_pos size) as Hu. set (pos := 8 * N.of_nat B + 7 - N.of_nat b) in *.
  assert (Hend : pos + units size <= 32768).
  { destruct (N.le_gt_cases (pos + units size) 32768) as [|C]; [assumption|]. assert (X : bitm (g_map s) (pos + units size - 1) = false) by (apply Hc; lia). rewrite bit_out in X; [discriminate|]. rewrite Hm, M. clear - C. lia. }
  assert (HB : N.of_nat B < 4096) by (unfold pos in Hend; clear - Hend Hu Hb; lia).
  destruct (mark_ok N.lor true lor_bit (N.to_nat (units size)) (g_map s) B b Hb) as (m' & Em & Lm & Bm).
  { rewrite N2Nat.id, Hm, M. exact Hend. }
  rewrite N2Nat.id in Bm. fold pos in Bm. pose proof (pad_ok (N.of_nat B) (N.of_nat b) ltac:(lia) ltac:(lia)) as Hp. cbv zeta in Hp.
  unfold carve. cbn [sh_segs]. rewrite Ei. cbn [obind]. rewrite Em. cbn [obind]. cbv zeta. unfold set_sblk, set_segs. cbn [sh_cap sh_segs sh_blks sh_mem].
  set (pad := N.lor (N.shiftl (N.land (N.of_nat B) 65535) 8) (N.land (N.of_nat b) 255) mod 2 ^ 30) in *. clearbody pad. set (s' := mkSeg (g_addr s) (g_size s) (g_nfree s - units size) (g_base s) (g_large s) m').
  set (k0 := mkSblk (g_addr s) size pad false). exists s', k0, (g_addr s + (N.of_nat B * 8 + (7 - N.of_nat b)) * unit).
  assert (Epos : pos_of k0 = pos). { unfold pos_of, k0. cbn [k_pad]. destruct Hp as [-> ->]. reflexivity. }
  assert (Ea : g_addr s + (N.of_nat B * 8 + (7 - N.of_nat b)) * unit = g_addr s + 64 * pos) by (unfold unit, pos; clear - Hb; lia). rewrite Ea. set (a := g_addr s + 64 * pos) in *.
  assert (H65 : 65 <= pos).
  { destruct (N.le_gt_cases 65 pos) as [|C]; [assumption|]. assert (X : bitm (g_map s) pos = true) by (apply Hbit; [lia|left; exact C]). rewrite Hc in X by lia. discriminate. }
  assert (Hfree : forall b k, blks b = Some k -> k_seg k = g_addr s -> forall i, pos <= i < pos + units size -> ~ covers k i).
  { intros b1 k1 E1 S1 j Hj C. assert (X : bitm (g_map s) j = true) by (apply Hbit; [lia|right; eauto]). rewrite Hc in X by exact Hj. discriminate. }
  assert (Ha : blks a = None).
  { destruct (blks a) as [k1|] eqn:E1; [|reflexivity]. exfalso. destruct (blk_place _ _ _ _ _ I E1) as (t & Ht & At & G1 & G2 & G3).
    destruct (ordered_apart _ _ _ _ _ (i_ord _ _ _ I) Ht Hs) as [->|[C|C]].
    - rewrite L in G3. destruct G3 as (G3 & _). assert (pos_of k1 = pos) by (unfold a in G3; clear - G3; lia). apply (Hfree a k1 E1 (eq_sym At) pos); [lia|]. unfold covers. pose proof (units_pos (k_size k1)). lia.
    - unfold a in G2. clear - C G2. lia.
    - unfold a in G1. rewrite Hg in C. clear - C G1 Hend Hu. lia. }
  split; [reflexivity|]. split; [reflexivity|]. split; [reflexivity|]. split; [exact Ha|]. split; [reflexivity|]. split; [exact L|].
  assert (Ord : ordered 2048 (upd segs i s') cap) by (eapply ordered_upd; [apply I|exact Ei|reflexivity|reflexivity]). pose proof (upd_in _ _ _ _ s' Ei) as Hs'.
  assert (Hold : forall t, In t segs -> g_addr t = g_addr s -> t = s) by (intros t Ht Et; eapply ordered_same; [apply I| | |]; assumption).
  constructor.
  - exact Ord.
  - intros b1 k1 E1. rewrite set_eq in E1. destruct (N.eqb_spec b1 a) as [->|Hne].
    + injection E1 as <-. exists s'. split; [exact Hs'|]. split; [reflexivity|]. change (g_large s') with (g_large s). rewrite L. unfold in_small. rewrite Epos. change (k_size k0) with size. change (g_addr s') with (g_addr s). change (k_pad k0) with pad. repeat split; try assumption. destruct Hp as [_ ->]. lia.
    + destruct (i_blk _ _ _ I _ _ E1) as (t & Ht & Et & G). destruct (in_upd_old _ _ _ _ s' t Ei Ht) as [->|Ht']; [|exists t; auto]. exists s'. split; [exact Hs'|]. split; [exact Et|]. exact G.
  - intros b1 k1 b2 k2 j E1 E2 Es Hsm C1 C2. rewrite set_eq in E1, E2. destruct (N.eqb_spec b1 a) as [->|N1], (N.eqb_spec b2 a) as [->|N2].
    + reflexivity.
    + exfalso. injection E1 as <-. unfold covers in C1. rewrite Epos in C1. eapply (Hfree b2 k2 E2); [symmetry; exact Es|exact C1|exact C2].
    + exfalso. injection E2 as <-. unfold covers in C2. rewrite Epos in C2. eapply (Hfree b1 k1 E1); [exact Es|exact C2|exact C1].
    + eapply (i_dis _ _ _ I); try eassumption. intros t Ht Et. destruct (in_upd_old _ _ _ _ s' t Ei Ht) as [->|Ht']; [exact L|apply Hsm; assumption].
  - intros t Ht Lt. destruct (in_upd _ _ _ _ _ t Ei Ht) as [->|Ht'].
    + cbn [g_size g_map g_base g_nfree g_addr s']. split; [exact Hg|]. split; [congruence|]. split; [exact Hba|]. split.
      * rewrite Hnf. rewrite (count_bitm (g_map s) m' pos (units size) Bm Lm Hc); [clear; lia|]. rewrite Hm, M. exact Hend.
      * intros j Hj. rewrite Bm. rewrite (add_ex blks a k0 (fun k => k_seg k = g_addr s /\ covers k j) Ha). specialize (Hbit j Hj).
        assert (C0 : covers k0 j <-> pos <= j < pos + units size) by (unfold covers; rewrite Epos; reflexivity). change (k_seg k0) with (g_addr s).
        destruct (N.leb_spec pos j), (N.ltb_spec j (pos + units size)); cbn [andb]; [split; [intros _; right; left; split; [reflexivity|apply C0; split; assumption]|reflexivity]| | |]; rewrite Hbit; (split; [intros [X|X]; [left; exact X|right; right; exact X]|intros [X|[[_ X]|X]]; [left; exact X|apply C0 in X; exfalso; clear - X H H0; lia|right; exact X]]).
    + destruct (N.eq_dec (g_addr t) (g_addr s)) as [Et|Et].
      * assert (t = s') by (eapply ordered_same; [exact Ord|exact Ht|exact Hs'|exact Et]). rewrite (Hold t Ht' Et) in *. exfalso. pose proof (f_equal (fun s => bitm (g_map s) pos) H) as X. cbn [g_map s'] in X. rewrite Bm, Hc in X by lia. destruct (N.leb_spec pos pos), (N.ltb_spec pos (pos + units size)); try lia. discriminate.
      * destruct (i_small _ _ _ I t Ht' Lt) as (G1 & G2 & G3 & G4 & G5). repeat (split; [assumption|]). intros j Hj. rewrite (add_ex blks a k0 (fun k => k_seg k = g_addr t /\ covers k j) Ha). change (k_seg k0) with (g_addr s). rewrite (G5 j Hj).
        split; [intros [X|X]; [left; exact X|right; right; exact X]|intros [X|[[X _]|X]]; [left; exact X|congruence|right; exact X]].
  - intros t Ht Lt. destruct (in_upd _ _ _ _ _ t Ei Ht) as [->|Ht']; [cbn [g_large s'] in Lt; congruence|]. destruct (i_large _ _ _ I t Ht' Lt) as (G0 & G). split; [exact G0|].
    apply (add_ex blks a k0 (fun k => k_seg k = g_addr t) Ha). right. exact G.
Qed.
Lemma inv0_insert cap l1 l2 blks a : inv0 cap (l1 ++ l2) blks -> ordered 2048 (l1 ++ small_seg a :: l2) cap -> (forall s, In s (l1 ++ l2) -> apart a 2097152 (g_addr s) (g_size s)) ->
  inv0 cap (l1 ++ small_seg a :: l2) blks.
Proof.
  intros I Ord Hap. destruct (small_seg_ok a) as (E1 & E2 & E3 & E4 & E5 & E6 & E7). pose proof (small_count a) as E8.
  assert (Hin : forall t, In t (l1 ++ small_seg a :: l2) <-> t = small_seg a \/ In t (l1 ++ l2)).
  { intros t. rewrite !in_app_iff. cbn [In]. split; intros H; intuition. }
  assert (Hno : forall b k, blks b = Some k -> k_seg k = a -> False).
  { intros b k E Ek. destruct (i_blk _ _ _ I _ _ E) as (s & Hs & Es & _). destruct (ordered_in _ _ _ _ (i_ord _ _ _ I) Hs) as (_ & G & _). destruct (Hap s Hs) as [C|C]; clear - C Es Ek G; lia. }
  constructor.
  - exact Ord.
  - intros b k E. destruct (i_blk _ _ _ I _ _ E) as (s & Hs & H). exists s. split; [apply Hin; right; exact Hs|exact H].
  - intros b k b' k' i H1 H2 H3 H4. eapply (i_dis _ _ _ I); try eassumption. intros s Hs. apply H4. apply Hin. right. exact Hs.
  - intros s Hs L. apply Hin in Hs. destruct Hs as [->|Hs]; [|apply (i_small _ _ _ I); assumption]. split; [exact E2|]. split; [exact E6|]. split; [exact E5|]. split; [rewrite E8; exact E4|].
    intros i Hi. rewrite E7. destruct (N.leb_spec 32768 i); [lia|]. rewrite orb_false_r. rewrite N.ltb_lt. split; [intros X; left; exact X|]. intros [X|(b & k & X & Y & _)]; [exact X|]. exfalso. apply (Hno b k X). congruence.
  - intros s Hs L. apply Hin in Hs. destruct Hs as [->|Hs]; [congruence|apply (i_large _ _ _ I); assumption].
Qed.
Lemma inv0_large cap l1 l2 blks a size : inv0 cap (l1 ++ l2) blks -> ordered 2048 (l1 ++ large_seg (size + 4200) a :: l2) cap -> (forall s, In s (l1 ++ l2) -> apart a (size + 4200) (g_addr s) (g_size s)) ->
  blks (a + 4144) = None /\ inv0 cap (l1 ++ large_seg (size + 4200) a :: l2) (set blks (a + 4144) (Some (mkSblk a size 0 true))).
Proof.
  intros I Ord Hap. set (k0 := mkSblk a size 0 true).
  assert (Hin : forall t, In t (l1 ++ large_seg (size + 4200) a :: l2) <-> t = large_seg (size + 4200) a \/ In t (l1 ++ l2)).
  { intros t. rewrite !in_app_iff. cbn [In]. split; intros H; intuition. }
  assert (Hseg : forall s, In s (l1 ++ l2) -> g_addr s <> a).
  { intros s Hs E. destruct (ordered_in _ _ _ _ (i_ord _ _ _ I) Hs) as (_ & G & _). destruct (Hap s Hs) as [C|C]; clear - C E G; lia. }
  assert (Hno : forall b k, blks b = Some k -> k_seg k <> a).
  { intros b k E Ek. destruct (i_blk _ _ _ I _ _ E) as (s & Hs & Es & _). apply (Hseg s Hs). congruence. }
  assert (Ha : blks (a + 4144) = None).
  { destruct (blks (a + 4144)) as [k|] eqn:E; [|reflexivity]. exfalso. destruct (blk_place _ _ _ _ _ I E) as (s & Hs & _ & G1 & G2 & _). destruct (Hap s Hs) as [C|C]; clear - C G1 G2; lia. }
  split; [exact Ha|]. constructor.
  - exact Ord.
  - intros b k E. rewrite set_eq in E. destruct (N.eqb_spec b (a + 4144)) as [->|Hn].
    + injection E as <-. exists (large_seg (size + 4200) a). split; [apply Hin; left; reflexivity|]. split; [reflexivity|]. split; reflexivity.
    + destruct (i_blk _ _ _ I _ _ E) as (s & Hs & H). exists s. split; [apply Hin; right; exact Hs|exact H].
  - intros b k b' k' i H1 H2 H3 H4 H5 H6. rewrite set_eq in H1, H2. destruct (N.eqb_spec b (a + 4144)) as [->|N1], (N.eqb_spec b' (a + 4144)) as [->|N2].
    + reflexivity.
    + exfalso. injection H1 as <-. apply (Hno _ _ H2). symmetry. exact H3.
    + exfalso. injection H2 as <-. apply (Hno _ _ H1). exact H3.
    + eapply (i_dis _ _ _ I); try eassumption. intros s Hs. apply H4. apply Hin. right. exact Hs.
  - intros s Hs L. apply Hin in Hs. destruct Hs as [->|Hs]; [discriminate|]. destruct (i_small _ _ _ I s Hs L) as (G1 & G2 & G3 & G4 & G5). repeat (split; [assumption|]).
    intros j Hj. rewrite (add_ex blks _ k0 (fun k => k_seg k = g_addr s /\ covers k j) Ha). rewrite (G5 j Hj). pose proof (Hseg s Hs) as Hn. change (k_seg k0) with a.
    split; [intros [X|X]; [left; exact X|right; right; exact X]|intros [X|[[X _]|X]]; [left; exact X|congruence|right; exact X]].
  - intros s Hs L. apply Hin in Hs. destruct Hs as [->|Hs].
    + split; [reflexivity|]. apply (add_ex blks _ k0 (fun k => k_seg k = a) Ha). left. reflexivity.
    + destruct (i_large _ _ _ I s Hs L) as (G0 & G). split; [exact G0|]. apply (add_ex blks _ k0 (fun k => k_seg k = g_addr s) Ha). right. exact G.
Qed.
Lemma allowed_ok s size x : allowed s size = Some x -> found (g_map s) (units size) x.
Proof.
  unfold allowed. destruct (g_nfree s <? units size); [discriminate|]. intros E. pose proof (scan_found (g_map s) (units size) (units_pos size)) as H. rewrite E in H. exact H.
Qed.
Lemma clear_run_count m k n : clear_run m k n -> 1 <= n -> n <= N.of_nat (clear_count m).
Proof.
  intros C Hn. assert (He : k + n <= 8 * N.of_nat (length m)).
  { destruct (N.le_gt_cases (k + n) (8 * N.of_nat (length m))) as [|X]; [assumption|]. assert (Y : bitm m (k + n - 1) = false) by (apply C; lia). rewrite bit_out in Y; [discriminate|lia]. }
  unfold clear_count. rewrite (count_range (fun j => negb (bitm m (N.of_nat j))) (fun j => negb (bitm m (N.of_nat j)) && negb ((k <=? N.of_nat j) && (N.of_nat j <? k + n))) (N.to_nat k) (N.to_nat n)); [lia|lia| |].
  - intros j Hj. rewrite C by lia. destruct (N.leb_spec k (N.of_nat j)), (N.ltb_spec (N.of_nat j) (k + n)); try lia; split; reflexivity.
  - intros j Hj. destruct (N.leb_spec k (N.of_nat j)), (N.ltb_spec (N.of_nat j) (k + n)); try lia; rewrite andb_true_r; reflexivity.
Qed.
Lemma allowed_none cap segs blks s size : inv0 cap segs blks -> In s segs -> g_large s = false -> allowed s size = None -> forall k, ~ free_run s k (units size).
Proof.
  intros I Hs L E k C. destruct (i_small _ _ _ I s Hs L) as (_ & Hm & _ & Hn & _). pose proof (units_pos size) as Hu. assert (C' : clear_run (g_map s) k (units size)) by exact C.
  revert E. unfold allowed. rewrite Hn. destruct (N.ltb_spec (N.of_nat (clear_count (g_map s))) (units size)) as [X|X].
  - pose proof (clear_run_count _ _ _ C' Hu). exfalso. lia.
  - intros E. pose proof (scan_found (g_map s) (units size) Hu) as H. rewrite E in H. apply (H k); [|exact C'].
    destruct (N.le_gt_cases (k + units size) (8 * N.of_nat (length (g_map s)))) as [|Y]; [assumption|]. assert (Z : bitm (g_map s) (k + units size - 1) = false) by (apply C'; lia). rewrite bit_out in Z; [discriminate|lia].
Qed.
Lemma allowed_new a size : size <= 1572864 -> exists x, allowed (small_seg a) size = Some x.
Proof.
  intros Hz. pose proof (units_max size Hz) as Hu. destruct (small_seg_ok a) as (_ & _ & _ & En & _ & L & B). unfold allowed. rewrite En. destruct (N.ltb_spec 32703 (units size)); [lia|].
  pose proof (scan_found (g_map (small_seg a)) (units size) (units_pos size)) as H1. destruct (scan (units size) (g_map (small_seg a)) 0 None) as [x|]; [eauto|]. exfalso.
  apply (H1 65); [rewrite L, ML; lia|]. intros i Hi. rewrite B. destruct (N.ltb_spec i 65), (N.leb_spec 32768 i); try lia; reflexivity.
Qed.
Definition grown (p p' : shm) (size : N) (q : N) : Prop :=
  exists a k, q = a + 56 /\ sh_blks p a = None /\ k_size k = size /\ sh_cap p' = sh_cap p /\ sh_mem p' = sh_mem p /\ (forall x, sh_blks p' x = if x =? a then Some k else sh_blks p x).
Definition ok (p : shm) : Prop := sh_cap p < 2 ^ 62 /\ inv0 (sh_cap p) (sh_segs p) (sh_blks p) /\ busy (sh_segs p) (sh_blks p).
Definition no_room (p : shm) (size : N) : Prop :=
  if 1572864 <? size then forall a, ~ unused p a (size + 4200)
  else (forall a, ~ unused p a 2097152) /\ forall s k, In s (sh_segs p) -> g_large s = false -> ~ free_run s k (units size).
Lemma carve_step p i s x size : ok p -> nth_error (sh_segs p) i = Some s -> g_large s = false -> found (g_map s) (units size) x ->
  exists p' q, carve p i x size = Some (p', q) /\ ok p' /\ grown p p' size q.
Proof.
  intros (Hc & I & Bz) Ei L F. destruct x as [B b]. destruct (carve_ok p i s B b size I Ei L F) as (s' & k & a & E & H1 & H2 & H3 & H4 & H5 & H6).
  eexists _, _. split; [exact E|]. split.
  - split; [exact Hc|]. split; [exact H6|]. cbn [sh_segs sh_blks]. intros t Ht Lt. apply (add_ex (sh_blks p) a k (fun k => k_seg k = g_addr t) H3).
    destruct (in_upd _ _ _ _ _ t Ei Ht) as [->|Ht']; [left; congruence|right; apply Bz; assumption].
  - exists a, k. cbn [sh_blks sh_cap sh_mem]. repeat split; assumption.
Qed.
Lemma alloc_ok p size : ok p -> size < 2 ^ 63 -> exists p' r, shm_alloc p size = Some (p', r) /\ ok p' /\
  match r with None => p' = p /\ no_room p size | Some q => grown p p' size q end.
Proof.
  intros (Hc & I & Bz) Hz. unfold shm_alloc, no_room. change large_size with 1572864. pose proof (i_ord _ _ _ I) as Ord. destruct (N.ltb_spec 1572864 size) as [Hl|Hl].
  - unfold shm_large. change seg_hdr with 4144. change blk_hdr with 56. rewrite (N.mod_small (size + 4144 + 56)) by (change (2 ^ 64) with (2 * 2 ^ 63); change (2 ^ 63) with 9223372036854775808 in *; clear - Hz; lia).
    replace (size + 4144 + 56) with (size + 4200) by (clear; lia). change pool_hdr with 2048. pose proof (place_ok (sh_cap p) (size + 4200) (large_seg (size + 4200)) Hc ltac:(clear; lia) ltac:(split; reflexivity) _ _ Ord) as P.
    destruct (place (sh_cap p) (size + 4200) (large_seg (size + 4200)) 2048 (sh_segs p)) as [[l i]|].
    + destruct P as (l1 & l2 & a & E1 & -> & -> & Ha & Hb & Ho & Hap). rewrite nth_error_app2, Nat.sub_diag by (clear; lia). cbn [nth_error obind]. rewrite E1 in I, Hap, Bz. destruct (inv0_large _ _ _ _ _ _ I Ho Hap) as [Hn I'].
      eexists _, _. split; [reflexivity|]. unfold set_sblk, set_segs. cbn [sh_cap sh_segs sh_blks sh_mem]. change (g_addr (large_seg (size + 4200) a)) with a. split.
      * split; [exact Hc|]. split; [exact I'|]. cbn [sh_segs sh_blks]. intros t Ht Lt. apply in_app_iff in Ht. apply (add_ex (sh_blks p) _ (mkSblk a size 0 true) (fun k => k_seg k = g_addr t) Hn). right.
        apply Bz; [|exact Lt]. rewrite in_app_iff. destruct Ht as [Ht|[<-|Ht]]; [left; exact Ht|discriminate|right; exact Ht].
      * exists (a + 4144), (mkSblk a size 0 true). repeat split; try reflexivity. exact Hn.
    + eexists _, _. split; [reflexivity|]. split; [exact (conj Hc (conj I Bz))|]. split; [reflexivity|]. intros a (U1 & U2 & U3). exact (P a U1 U2 U3).
  - pose proof (find_ok size (sh_segs p)) as F. destruct (find_seg (sh_segs p) size) as [[i x]|].
    + destruct F as (s & Ei & Ex). assert (L : g_large s = false).
      { destruct (g_large s) eqn:L; [|reflexivity]. destruct (i_large _ _ _ I s (nth_error_In _ _ Ei) L) as [E0 _]. unfold allowed in Ex. rewrite E0 in Ex. pose proof (units_pos size). destruct (N.ltb_spec 0 (units size)); [discriminate|clear - H H0; lia]. }
      destruct (carve_step p i s x size (conj Hc (conj I Bz)) Ei L (allowed_ok _ _ _ Ex)) as (p' & q & E & O & G). rewrite E. cbn [obind fst snd]. eexists _, _. split; [reflexivity|]. split; assumption.
    + change default_size with 2097152. change pool_hdr with 2048.
      pose proof (place_ok (sh_cap p) 2097152 small_seg Hc ltac:(clear; lia) ltac:(intros a; split; apply (small_seg_ok a)) _ _ Ord) as P. destruct (place (sh_cap p) 2097152 small_seg 2048 (sh_segs p)) as [[l i]|].
      * destruct P as (l1 & l2 & a & E1 & -> & -> & Ha & Hb & Ho & Hap). assert (Ei : nth_error (l1 ++ small_seg a :: l2) (length l1) = Some (small_seg a)) by (rewrite nth_error_app2, Nat.sub_diag by (clear; lia); reflexivity).
        rewrite Ei. destruct (allowed_new a size Hl) as [[B b] Ex]. cbn [obind]. rewrite Ex. cbn [obind]. rewrite E1 in I, Hap, Bz. pose proof (inv0_insert _ _ _ _ _ I Ho Hap) as I'. destruct (small_seg_ok a) as (_ & _ & L & _).
        destruct (carve_ok (set_segs p (l1 ++ small_seg a :: l2)) _ _ B b size I' Ei L (allowed_ok _ _ _ Ex)) as (s' & k & c & E & H1 & H2 & H3 & H4 & H5 & H6).
        rewrite E. cbn [obind fst snd]. eexists _, _. split; [reflexivity|]. unfold set_segs in *. cbn [sh_cap sh_segs sh_blks sh_mem] in *. split.
        -- split; [exact Hc|]. split; [exact H6|]. cbn [sh_segs sh_blks]. intros t Ht Lt. apply (add_ex (sh_blks p) c k (fun k => k_seg k = g_addr t) H3).
           apply (in_upd _ _ _ _ _ t Ei) in Ht. destruct Ht as [->|Ht]; [left; congruence|]. apply in_app_iff in Ht. destruct Ht as [Ht|[<-|Ht]]; [right; apply Bz; [apply in_app_iff; left; exact Ht|exact Lt]|left; exact H2|right; apply Bz; [apply in_app_iff; right; exact Ht|exact Lt]].
        -- exists c, k. cbn [sh_blks sh_cap sh_mem]. repeat split; assumption.
      * eexists _, _. split; [reflexivity|]. split; [exact (conj Hc (conj I Bz))|]. split; [reflexivity|]. split; [intros a (U1 & U2 & U3); exact (P a U1 U2 U3)|]. intros s k Hs L. eapply allowed_none; try eassumption. apply F. exact Hs.
Qed.

(** ** Giving units back *)
Lemma seg_index_ok : forall l s, In s l -> exists i t, seg_index (g_addr s) l = Some i /\ nth_error l i = Some t /\ g_addr t = g_addr s.
Proof.
  induction l as [|x l IH]; intros s Hs; [contradiction|]. cbn [seg_index]. destruct (N.eqb_spec (g_addr x) (g_addr s)) as [E|E].
  - exists 0%nat, x. auto.
  - destruct Hs as [->|Hs]; [congruence|]. destruct (IH s Hs) as (i & t & E1 & E2 & E3). exists (S i), t. rewrite E1. auto.
Qed.
Lemma in_remove : forall l lo hi i s t, ordered lo l hi -> nth_error l i = Some s -> (In t (remove_nth i l) <-> In t l /\ g_addr t <> g_addr s).
Proof.
  induction l as [|x l IH]; intros lo hi [|i] s t Ho E; cbn [nth_error remove_nth ordered] in *; try discriminate; destruct Ho as (H1 & H2 & H3).
  - injection E as ->. split.
    + intros H. split; [right; exact H|]. destruct (ordered_in _ _ _ _ H3 H). lia.
    + intros [[<-|H] Hn]; [congruence|exact H].
  - cbn [In]. rewrite (IH _ _ i s t H3 E). pose proof (ordered_in _ _ _ _ H3 (nth_error_In _ _ E)) as [G _]. split.
    + intros [<-|[H Hn]]; [split; [left; reflexivity|lia]|split; [right; exact H|exact Hn]].
    + intros [[<-|H] Hn]; [left; reflexivity|right; split; assumption].
Qed.
Lemma count_lt A (f g : A -> bool) : forall l x, (forall y, f y = true -> g y = true) -> In x l -> f x = false -> g x = true -> (length (filter f l) < length (filter g l))%nat.
Proof.
  assert (Hle : forall l, (forall y, f y = true -> g y = true) -> (length (filter f l) <= length (filter g l))%nat).
  { intros l Hfg. induction l as [|y l IH]; [reflexivity|]. cbn [filter]. destruct (f y) eqn:Ef; [rewrite (Hfg y Ef); cbn [length]; lia|]. destruct (g y); cbn [length]; lia. }
  induction l as [|y l IH]; intros x Hfg Hx Hf Hg; [contradiction|]. cbn [filter]. destruct Hx as [->|Hx].
  - rewrite Hf, Hg. cbn [length]. specialize (Hle l Hfg). lia.
  - specialize (IH x Hfg Hx Hf Hg). destruct (f y) eqn:Ef; [rewrite (Hfg y Ef); cbn [length]; lia|]. destruct (g y); cbn [length]; lia.
Qed.
Lemma count_ne A (f g : A -> bool) : forall l, length (filter f l) <> length (filter g l) -> exists x, In x l /\ f x <> g x.
Proof.
  induction l as [|y l IH]; cbn [filter]; intros H; [contradiction|]. destruct (f y) eqn:Ef, (g y) eqn:Eg; cbn [length] in H; try (exists y; split; [left; reflexivity|congruence]); destruct IH as (x & Hx & Hn); try lia; exists x; split; try assumption; right; exact Hx.
Qed.
Section Full.
Variables (m m0 : list N) (len : nat).
Hypotheses (L : length m = len) (L0 : length m0 = len) (M : N.of_nat len = 4096).
Hypothesis B0 : forall k, bitm m0 k = ((k <? 65) || (32768 <=? k)).
Hypothesis C0 : N.of_nat (clear_count m0) = 32703.
Hypothesis Hlo : forall i, i < 65 -> bitm m i = true.
Lemma full0 : (forall i, 65 <= i < 32768 -> bitm m i = false) -> N.of_nat (clear_count m) = 32703.
Proof.
  intros H. rewrite <- C0. unfold clear_count. rewrite L, L0. f_equal. f_equal. apply filter_ext_in. intros i Hi. apply in_seq in Hi. rewrite B0. f_equal.
  destruct (N.ltb_spec (N.of_nat i) 65) as [X|X]; [apply Hlo; exact X|]. destruct (N.leb_spec 32768 (N.of_nat i)); [clear - Hi M H0; lia|]. apply H. split; assumption.
Qed.
Lemma full1 : N.of_nat (clear_count m) = 32703 -> forall i, 65 <= i < 32768 -> bitm m i = false.
Proof.
  intros E i Hi. destruct (bitm m i) eqn:Eb; [|reflexivity]. exfalso.
  assert (X : (clear_count m < clear_count m0)%nat).
  { unfold clear_count. rewrite L, L0. apply (count_lt _ _ _ _ (N.to_nat i)).
    - intros y Hy. rewrite negb_true_iff in *. rewrite B0. destruct (N.ltb_spec (N.of_nat y) 65) as [X|X]; [rewrite (Hlo _ X) in Hy; discriminate|]. destruct (N.leb_spec 32768 (N.of_nat y)) as [Y|Y]; [|reflexivity]. rewrite bit_out in Hy; [discriminate|]. rewrite L, M. exact Y.
    - apply in_seq. clear - Hi M. lia.
    - rewrite N2Nat.id, Eb. reflexivity.
    - rewrite N2Nat.id, B0. destruct (N.ltb_spec i 65), (N.leb_spec 32768 i); try (clear - Hi H H0; lia); reflexivity. }
  clear - X E C0. lia.
Qed.
Lemma full2 : N.of_nat (clear_count m) <> 32703 -> exists j, 65 <= j < 32768 /\ bitm m j = true.
Proof.
  intros E. destruct (count_ne _ (fun k => negb (bitm m (N.of_nat k))) (fun k => negb (bitm m0 (N.of_nat k))) (seq 0 (8 * len))) as (j & Hj & Hd).
  { unfold clear_count in *. rewrite L in E. rewrite L0 in C0. clear - E C0. lia. }
  apply in_seq in Hj. rewrite B0 in Hd. exists (N.of_nat j). destruct (N.ltb_spec (N.of_nat j) 65) as [P|P]; [rewrite (Hlo _ P) in Hd; exfalso; apply Hd; reflexivity|].
  destruct (N.leb_spec 32768 (N.of_nat j)) as [Q|Q]; [clear - Q Hj M; lia|]. split; [split; assumption|]. destruct (bitm m (N.of_nat j)); [reflexivity|exfalso; apply Hd; reflexivity].
Qed.
End Full.
Lemma unmark_bits m m' pos n : (forall k, bitm m' k = if (pos <=? k) && (k <? pos + n) then false else bitm m k) -> length m' = length m -> (forall k, pos <= k < pos + n -> bitm m k = true) ->
  pos + n <= 8 * N.of_nat (length m) -> N.of_nat (clear_count m') = n + N.of_nat (clear_count m).
Proof.
  intros B L C Hl. apply (count_bitm m' m pos n).
  - intros k. rewrite B. destruct (N.leb_spec pos k), (N.ltb_spec k (pos + n)); cbn [andb]; try reflexivity. apply C. lia.
  - congruence.
  - intros k Hk. rewrite B. destruct (N.leb_spec pos k), (N.ltb_spec k (pos + n)); try lia; reflexivity.
  - rewrite L. exact Hl.
Qed.
Lemma free_ok p b k : ok p -> sh_blks p b = Some k -> exists p', shm_free p (b + 56) = Some p' /\ ok p' /\ sh_cap p' = sh_cap p /\ sh_mem p' = sh_mem p /\
  (forall x, sh_blks p' x = if x =? b then None else sh_blks p x).
Proof.
  destruct p as [cap segs blks mem]. unfold ok. cbn [sh_cap sh_segs sh_blks sh_mem]. intros (Hcap & I & Bz) Eb. pose proof (i_ord _ _ _ I) as Ord. unfold shm_free. change blk_hdr with 56.
  destruct (N.ltb_spec (b + 56) 56) as [C|_]; [clear - C; lia|]. rewrite N.add_sub. cbn [sh_blks sh_segs]. rewrite Eb. cbn [obind]. destruct (i_blk _ _ _ I _ _ Eb) as (s & Hs & Es & Hk).
  destruct (seg_index_ok _ _ Hs) as (i & t & E1 & E2 & E3). assert (t = s) by (eapply ordered_same; [exact Ord|eapply nth_error_In; exact E2|exact Hs|exact E3]). subst t. clear E3.
  rewrite <- Es, E1. cbn [obind]. rewrite E2. cbn [obind]. cbv zeta. unfold set_sblk, set_segs. cbn [sh_cap sh_segs sh_blks sh_mem].
  assert (Hold : forall t, In t segs -> g_addr t = g_addr s -> t = s) by (intros t Ht Et; eapply ordered_same; eassumption).
  assert (Hblk : forall x, set blks b None x = if x =? b then None else blks x) by reflexivity.
  (* a segment that loses its last block *)
  assert (Hrem : (forall b' k', b' <> b -> blks b' = Some k' -> k_seg k' <> g_addr s) -> (sh_cap (mkShm cap (remove_nth i segs) (set blks b None) mem) < 2 ^ 62 /\ inv0 cap (remove_nth i segs) (set blks b None) /\ busy (remove_nth i segs) (set blks b None))).
  { intros Hlast. pose proof (fun t => in_remove segs 2048 cap i s t Ord E2) as Hin. split; [exact Hcap|]. split; [constructor|].
    - apply ordered_remove. exact Ord.
    - intros b1 k1 X. rewrite Hblk in X. destruct (N.eqb_spec b1 b) as [|Hn]; [discriminate|]. destruct (i_blk _ _ _ I _ _ X) as (t & Ht & Et & G). exists t. split; [|split; assumption]. apply Hin. split; [exact Ht|]. rewrite Et. eapply Hlast; eassumption.
    - intros b1 k1 b2 k2 j X1 X2 Y Z. rewrite Hblk in X1, X2. destruct (N.eqb_spec b1 b) as [|N1], (N.eqb_spec b2 b) as [|N2]; try discriminate. eapply (i_dis _ _ _ I); try eassumption.
      intros t Ht Et. apply Z; [|exact Et]. apply Hin. split; [exact Ht|]. rewrite Et. apply (Hlast b1 k1 N1 X1).
    - intros t Ht L. apply Hin in Ht. destruct Ht as [Ht Hn]. destruct (i_small _ _ _ I t Ht L) as (G1 & G2 & G3 & G4 & G5). repeat (split; [assumption|]). intros j Hj. rewrite (G5 j Hj). rewrite (del_ex blks b (fun k => k_seg k = g_addr t /\ covers k j)).
      split; (intros [X|X]; [left; exact X|right]).
      + destruct X as (b1 & k1 & X1 & X2 & X3). exists b1, k1. split; [|auto]. intros ->. rewrite Eb in X1. injection X1 as <-. congruence.
      + destruct X as (b1 & k1 & _ & X). eauto.
    - intros t Ht L. apply Hin in Ht. destruct Ht as [Ht Hn]. destruct (i_large _ _ _ I t Ht L) as (G0 & b1 & k1 & X1 & X2). split; [exact G0|]. exists b1, k1. rewrite Hblk. destruct (N.eqb_spec b1 b) as [->|]; [|auto]. rewrite Eb in X1. injection X1 as <-. congruence.
    - intros t Ht L. apply Hin in Ht. destruct Ht as [Ht Hn]. destruct (Bz t Ht L) as (b1 & k1 & X1 & X2). exists b1, k1. rewrite Hblk. destruct (N.eqb_spec b1 b) as [->|]; [|auto]. rewrite Eb in X1. injection X1 as <-. congruence. }
  destruct (g_large s) eqn:L.
  - cbn [obind]. rewrite L. cbn [orb]. eexists. split; [reflexivity|]. split; [|repeat split; reflexivity]. apply Hrem. intros b1 k1 Hn X Ek. apply Hn. destruct (i_blk _ _ _ I _ _ X) as (t & Ht & Et & G). rewrite (Hold t Ht ltac:(congruence)), L in G. destruct Hk, G. congruence.
  - destruct (i_small _ _ _ I s Hs L) as (G1 & G2 & G3 & G4 & G5). destruct Hk as (K1 & K2 & K3 & K4). pose proof ML as M. pose proof (units_pos (k_size k)) as Hu.
    destruct (mark_ok N.ldiff false ldiff_bit (N.to_nat (units (k_size k))) (g_map s) (N.to_nat (N.land (N.shiftr (k_pad k) 8) 65535)) (N.to_nat (N.land (k_pad k) 255)) ltac:(clear - K2; lia)) as (m' & Em & Lm & Bm).
    { rewrite !N2Nat.id, G2, M. exact K4. }
    rewrite !N2Nat.id in Bm. fold (pos_of k) in Bm. rewrite Em. cbn [obind g_large g_nfree g_base]. cbn [orb].
    assert (Hset : forall j, pos_of k <= j < pos_of k + units (k_size k) -> bitm (g_map s) j = true).
    { intros j Hj. apply G5; [clear - Hj K4; lia|]. right. exists b, k. split; [exact Eb|]. split; [congruence|exact Hj]. }
    pose proof (unmark_bits _ _ _ _ Bm Lm Hset ltac:(rewrite G2, M; exact K4)) as Hcnt.
    assert (Hlow : forall j, j < 65 -> bitm m' j = true).
    { intros j Hj. rewrite Bm. destruct (N.leb_spec (pos_of k) j) as [C|_]; [clear - C Hj K3; lia|]. cbn [andb]. apply G5; [clear - Hj; lia|left; exact Hj]. }
    assert (Hbits : forall j, j < 32768 -> (bitm m' j = true <-> j < 65 \/ exists b1 k1, set blks b None b1 = Some k1 /\ k_seg k1 = g_addr s /\ covers k1 j)).
    { intros j Hj. rewrite (del_ex blks b (fun k => k_seg k = g_addr s /\ covers k j)). rewrite Bm. specialize (G5 j Hj). destruct (N.leb_spec (pos_of k) j) as [P1|P1], (N.ltb_spec j (pos_of k + units (k_size k))) as [P2|P2]; cbn [andb].
      - split; [discriminate|]. intros [X|(b1 & k1 & X1 & X2 & X3 & X4)]; [clear - X P1 K3; lia|]. exfalso. apply X1. eapply (i_dis _ _ _ I b1 k1 b k); try eassumption; [congruence| |split; assumption]. intros t Ht Et. rewrite (Hold t Ht ltac:(congruence)). exact L.
      - rewrite G5. split; (intros [X|X]; [left; exact X|right]); [|destruct X as (b1 & k1 & _ & X); eauto]. destruct X as (b1 & k1 & X1 & X2 & X3). exists b1, k1. split; [|auto]. intros ->. rewrite Eb in X1. injection X1 as <-. destruct X3. clear - H0 P2. lia.
      - rewrite G5. split; (intros [X|X]; [left; exact X|right]); [|destruct X as (b1 & k1 & _ & X); eauto]. destruct X as (b1 & k1 & X1 & X2 & X3). exists b1, k1. split; [|auto]. intros ->. rewrite Eb in X1. injection X1 as <-. destruct X3. clear - H P1. lia.
      - rewrite G5. split; (intros [X|X]; [left; exact X|right]); [|destruct X as (b1 & k1 & _ & X); eauto]. destruct X as (b1 & k1 & X1 & X2 & X3). exists b1, k1. split; [|auto]. intros ->. rewrite Eb in X1. injection X1 as <-. destruct X3. clear - H P1. lia. }
    assert (Lm' : length m' = map_len) by congruence. destruct (small_seg_ok 0) as (_ & _ & _ & _ & _ & L0 & B0). pose proof (small_count 0) as C0.
    pose proof (full1 m' _ _ Lm' L0 M B0 C0 Hlow) as Hfull. pose proof (full2 m' _ _ Lm' L0 M B0 C0 Hlow) as Hex. rewrite Hcnt in Hfull, Hex. clear L0 B0 C0.
    rewrite G3, G4. destruct (N.eqb_spec (N.of_nat (clear_count (g_map s)) + units (k_size k)) 32703) as [Ef|Ef].
    + eexists. split; [reflexivity|]. split; [|repeat split; reflexivity]. apply Hrem. intros b1 k1 Hn X Ek. destruct (i_blk _ _ _ I _ _ X) as (t & Ht & Et & G). rewrite (Hold t Ht ltac:(congruence)), L in G. destruct G as (Q1 & Q2 & Q3 & Q4). pose proof (units_pos (k_size k1)) as Hu1.
      assert (Y : bitm m' (pos_of k1) = false). { apply Hfull; [clear - Ef; lia|clear - Q3 Q4 Hu1; lia]. }
      assert (Z : bitm m' (pos_of k1) = true). { apply Hbits; [clear - Q3 Q4 Hu1; lia|]. right. exists b1, k1. rewrite Hblk. destruct (N.eqb_spec b1 b); [contradiction|]. split; [exact X|]. split; [exact Ek|]. unfold covers. clear - Hu1. lia. }
      congruence.
    + set (s' := mkSeg (g_addr s) (g_size s) (N.of_nat (clear_count (g_map s)) + units (k_size k)) 32703 false m'). eexists. split; [reflexivity|]. cbn [sh_cap sh_segs sh_blks sh_mem]. split; [|repeat split; reflexivity].
      assert (Ord' : ordered 2048 (upd segs i s') cap) by (eapply ordered_upd; [exact Ord|exact E2|reflexivity|reflexivity]). pose proof (upd_in _ _ _ _ s' E2) as Hs'.
      assert (Hin : forall t, In t (upd segs i s') -> t = s' \/ (In t segs /\ g_addr t <> g_addr s)).
      { intros t Ht. destruct (in_upd _ _ _ _ _ t E2 Ht) as [->|Ht']; [left; reflexivity|]. destruct (N.eq_dec (g_addr t) (g_addr s)) as [Et|Et]; [left|right; split; assumption]. eapply ordered_same; [exact Ord'|exact Ht|exact Hs'|exact Et]. }
      assert (Hout : forall t, In t segs -> In t (upd segs i s') \/ t = s). { intros t Ht. destruct (in_upd_old _ _ _ _ s' t E2 Ht); auto. }
      split; [exact Hcap|]. split; [constructor|].
      * exact Ord'.
      * intros b1 k1 X. rewrite Hblk in X. destruct (N.eqb_spec b1 b) as [|Hn]; [discriminate|]. destruct (i_blk _ _ _ I _ _ X) as (t & Ht & Et & G). destruct (Hout t Ht) as [Ht'| ->]; [exists t; auto|]. exists s'. split; [exact Hs'|]. split; [exact Et|]. rewrite L in G. exact G.
      * intros b1 k1 b2 k2 j X1 X2 Y Z. rewrite Hblk in X1, X2. destruct (N.eqb_spec b1 b) as [|N1], (N.eqb_spec b2 b) as [|N2]; try discriminate. eapply (i_dis _ _ _ I); try eassumption.
        intros t Ht Et. destruct (Hout t Ht) as [Ht'| ->]; [apply Z; assumption|exact L].
      * intros t Ht Lt. destruct (Hin t Ht) as [->|[Ht' Hn]].
        -- cbn [g_size g_map g_base g_nfree g_addr s']. split; [exact G1|]. split; [exact Lm'|]. split; [reflexivity|]. split; [rewrite Hcnt; apply N.add_comm|]. exact Hbits.
        -- destruct (i_small _ _ _ I t Ht' Lt) as (F1 & F2 & F3 & F4 & F5). repeat (split; [assumption|]). intros j Hj. rewrite (F5 j Hj). rewrite (del_ex blks b (fun k => k_seg k = g_addr t /\ covers k j)).
           split; (intros [X|X]; [left; exact X|right]); [|destruct X as (b1 & k1 & _ & X); eauto]. destruct X as (b1 & k1 & X1 & X2 & X3). exists b1, k1. split; [|auto]. intros ->. rewrite Eb in X1. injection X1 as <-. congruence.
      * intros t Ht Lt. destruct (Hin t Ht) as [->|[Ht' Hn]]; [discriminate|]. destruct (i_large _ _ _ I t Ht' Lt) as (F0 & b1 & k1 & X1 & X2). split; [exact F0|]. exists b1, k1. rewrite Hblk. destruct (N.eqb_spec b1 b) as [->|]; [|auto]. rewrite Eb in X1. injection X1 as <-. congruence.
      * intros t Ht Lt. destruct (Hin t Ht) as [->|[Ht' Hn]].
        -- destruct Hex as (j & Hj & Ej); [clear - Ef; lia|]. apply Hbits in Ej; [|apply Hj]. destruct Ej as [C|(b1 & k1 & X1 & X2 & _)]; [clear - C Hj; lia|]. exists b1, k1. split; assumption.
        -- destruct (Bz t Ht' Lt) as (b1 & k1 & X1 & X2). exists b1, k1. rewrite Hblk. destruct (N.eqb_spec b1 b) as [->|]; [|auto]. rewrite Eb in X1. injection X1 as <-. congruence.
Qed.

(** ** Programs that use the pool *)
Record linv (cap : N) (l : list sl) (p : shm) : Prop := {
  n_ok : ok p;
  n_cap : sh_cap p = cap;
  n_nodup : NoDup (map v_ptr l);
  n_blk : forall b, In b l -> exists a k, v_ptr b = a + 56 /\ sh_blks p a = Some k /\ k_size k = v_room b /\ v_len b <= v_room b;
  n_live : forall a k, sh_blks p a = Some k -> In (a + 56) (map v_ptr l);
  n_mem : forall b i v, In b l -> i < v_len b -> v_bytes b i = Some v -> sh_mem p (v_ptr b + i) = v
}.
Lemma ok_mem p f : ok p -> ok (set_smem p f).
Proof. intros H. exact H. Qed.
Lemma same_ptr cap l p b b' : linv cap l p -> In b l -> In b' l -> v_ptr b = v_ptr b' -> b = b'.
Proof.
  intros I Hb Hb' E. pose proof (n_nodup _ _ _ I) as N. clear I. induction l as [|x l IH]; [contradiction|]. cbn [map] in N. inversion N as [|? ? N1 N2]; subst. destruct Hb as [->|Hb], Hb' as [->|Hb']; auto.
  - exfalso. apply N1. rewrite E. apply in_map. exact Hb'.
  - exfalso. apply N1. rewrite <- E. apply in_map. exact Hb.
Qed.
Lemma live_apart cap l p b b' : linv cap l p -> In b l -> In b' l -> v_ptr b <> v_ptr b' -> apart (v_ptr b - 56) (56 + v_room b) (v_ptr b' - 56) (56 + v_room b').
Proof.
  intros I Hb Hb' Hn. destruct (n_blk _ _ _ I b Hb) as (a & k & E1 & E2 & E3 & E4). destruct (n_blk _ _ _ I b' Hb') as (a' & k' & F1 & F2 & F3 & F4). destruct (n_ok _ _ _ I) as (_ & I0 & _).
  rewrite E1, F1, !N.add_sub, <- E3, <- F3. eapply blk_apart; try eassumption. congruence.
Qed.
Lemma linv_add cap l p p' size q by_ f : linv cap l p -> ok p' -> grown p p' size q -> (forall i v, i < size -> by_ i = Some v -> f (q + i) = v) ->
  (forall x, ~ (q <= x < q + size) -> f x = sh_mem p x) -> linv cap (mkSl q size size by_ :: l) (set_smem p' f).
Proof.
  intros I O (a & k & Eq & Ha & Ek & Ec & Em & Eb) Hby Hf. subst q. assert (Ea : sh_blks p' a = Some k) by (rewrite Eb, N.eqb_refl; reflexivity). constructor.
  - exact O.
  - cbn [sh_cap set_smem]. rewrite Ec. apply I.
  - cbn [map v_ptr]. constructor; [|apply I]. intros C. apply in_map_iff in C. destruct C as (b & E & Hb). destruct (n_blk _ _ _ I b Hb) as (a' & k' & E1 & E2 & _). assert (a' = a) by lia. subst a'. congruence.
  - intros b [<-|Hb]; cbn [sh_blks set_smem].
    + exists a, k. cbn [v_ptr v_room v_len]. repeat split; try assumption. reflexivity.
    + destruct (n_blk _ _ _ I b Hb) as (a' & k' & E1 & E2 & E3). exists a', k'. split; [exact E1|]. split; [|exact E3]. rewrite Eb. destruct (N.eqb_spec a' a) as [->|]; [congruence|exact E2].
  - cbn [sh_blks set_smem map v_ptr]. intros a' k' E. rewrite Eb in E. destruct (N.eqb_spec a' a) as [->|Hn]; [left; reflexivity|right]. eapply n_live; eassumption.
  - cbn [sh_mem set_smem]. intros b i v [<-|Hb] Hi Hv; cbn [v_ptr v_len v_bytes] in *; [apply Hby; assumption|]. destruct (n_blk _ _ _ I b Hb) as (a' & k' & E1 & E2 & E3 & E4).
    rewrite Hf; [eapply n_mem; eassumption|]. assert (Hn : a <> a') by congruence. destruct O as (_ & O & _). assert (E2' : sh_blks p' a' = Some k') by (rewrite Eb; destruct (N.eqb_spec a' a); [congruence|exact E2]).
    destruct (blk_apart _ _ _ _ _ _ _ O Ea E2' Hn) as [X|X]; rewrite E1; clear - X Hi E3 E4 Ek; lia.
Qed.
Lemma in_drop q l b : In b (drop_at q l) <-> In b l /\ v_ptr b <> q.
Proof. unfold drop_at. rewrite filter_In, negb_true_iff, N.eqb_neq. reflexivity. Qed.
Lemma nodup_drop q l : NoDup (map v_ptr l) -> NoDup (map v_ptr (drop_at q l)).
Proof.
  induction l as [|x l IH]; intros N; [constructor|]. cbn [map] in N. inversion N as [|? ? N1 N2]; subst. unfold drop_at. cbn [filter]. fold (drop_at q l). destruct (negb (v_ptr x =? q)); [|auto]. cbn [map]. constructor; [|auto].
  intros C. apply N1. apply in_map_iff in C. destruct C as (b & E & Hb). apply in_drop in Hb. rewrite <- E. apply in_map. apply Hb.
Qed.
Lemma linv_drop cap l p q : linv cap l p -> In q (map v_ptr l) -> exists p', shm_free p q = Some p' /\ linv cap (drop_at q l) p' /\ sh_mem p' = sh_mem p.
Proof.
  intros I Hq. apply in_map_iff in Hq. destruct Hq as (b & <- & Hb). destruct (n_blk _ _ _ I b Hb) as (a & k & E1 & E2 & E3 & E4). destruct (free_ok p a k (n_ok _ _ _ I) E2) as (p' & E & O & Ec & Em & Eb). rewrite E1. exists p'. split; [exact E|]. split; [|exact Em].
  constructor.
  - exact O.
  - rewrite Ec. apply I.
  - apply nodup_drop. apply I.
  - intros c Hc. apply in_drop in Hc. destruct Hc as [Hc Hn]. destruct (n_blk _ _ _ I c Hc) as (a' & k' & F1 & F2 & F3). exists a', k'. split; [exact F1|]. split; [|exact F3]. rewrite Eb. destruct (N.eqb_spec a' a) as [->|]; [congruence|exact F2].
  - intros a' k' F. rewrite Eb in F. destruct (N.eqb_spec a' a) as [|Hn]; [discriminate|]. apply (n_live _ _ _ I) in F. apply in_map_iff in F. destruct F as (c & F1 & F2). apply in_map_iff. exists c. split; [exact F1|]. apply in_drop. split; [exact F2|]. lia.
  - intros c i v Hc. apply in_drop in Hc. rewrite Em. apply I. apply Hc.
Qed.
Lemma held_at_ok cap l p q : linv cap l p -> In q (map v_ptr l) -> exists b, held_at q l = Some b /\ In b l /\ v_ptr b = q.
Proof.
  intros I Hq. unfold held_at. destruct (find (fun b => v_ptr b =? q) l) as [b|] eqn:E.
  - exists b. apply find_some in E. destruct E as [E1 E2]. apply N.eqb_eq in E2. auto.
  - exfalso. apply in_map_iff in Hq. destruct Hq as (b & E1 & E2). pose proof (find_none _ _ E b E2) as H. cbn beta in H. apply N.eqb_neq in H. contradiction.
Qed.
Definition refusal (p : shm) (o : sop) (r : option N) (p' : shm) : Prop :=
  match o, r with SAlloc size, None | SZero size, None => p' = p /\ no_room p size | SRe q size, None => size <> 0 -> p' = p /\ no_room p size | _, _ => True end.
Lemma set_smem_id p : set_smem p (sh_mem p) = p. Proof. destruct p. reflexivity. Qed.
Lemma step_ok cap l p o : linv cap l p -> slegal l o -> exists p' r, shm_step p o = Some (p', r) /\ linv cap (slive_step l o r) p' /\ refusal p o r p'.
Proof.
  intros I L. destruct o as [size|size|q size|q|a v]; cbn [shm_step slive_step slegal refusal] in *.
  - destruct (alloc_ok p size (n_ok _ _ _ I) L) as (p' & r & E & O & H). exists p', r. split; [exact E|]. destruct r as [q|]; [|destruct H as [-> H]; auto]. split; [|exact Logic.I].
    pose proof H as (a & k & _ & _ & _ & _ & Em & _). rewrite <- (set_smem_id p'). apply (linv_add cap l p p' size q _ _ I O H); [discriminate|]. intros x _. congruence.
  - unfold shm_zero. destruct (alloc_ok p size (n_ok _ _ _ I) L) as (p' & r & E & O & H). rewrite E. cbn [obind]. destruct r as [q|]; [|destruct H as [-> H]; eexists _, _; split; [reflexivity|auto]]. eexists _, _. split; [reflexivity|]. split; [|exact Logic.I].
    pose proof H as (a & k & _ & _ & _ & _ & Em & _). apply (linv_add cap l p p' size q _ _ I O H).
    + intros i v Hi Hv. injection Hv as <-. unfold fill. destruct (N.leb_spec q (q + i)), (N.ltb_spec (q + i) (q + size)); try (clear - Hi H0 H1; lia). reflexivity.
    + intros x Hx. unfold fill. destruct (N.leb_spec q x), (N.ltb_spec x (q + size)); cbn [andb]; try (exfalso; apply Hx; split; assumption); rewrite Em; reflexivity.
  - destruct L as [Hz Hq]. unfold shm_re. destruct (N.eqb_spec size 0) as [->|Hs].
    { destruct (linv_drop cap l p q I Hq) as (p' & E & I' & _). rewrite E. cbn [obind]. exists p', None. split; [reflexivity|]. split; [exact I'|]. intros C. contradiction. }
    destruct (held_at_ok _ _ _ _ I Hq) as (b & Eh & Hb & Ep). rewrite Eh. destruct (n_blk _ _ _ I b Hb) as (a & k & E1 & E2 & E3 & E4). assert (Ea : q - 56 = a) by (clear - E1 Ep; lia). change blk_hdr with 56.
    destruct (N.ltb_spec q 56) as [C|_]; [clear - C E1 Ep; lia|]. rewrite Ea, E2. cbn [obind]. destruct (N.leb_spec size (k_size k)) as [Hle|Hgt].
    + exists p, (Some q). split; [reflexivity|]. split; [|exact Logic.I]. rewrite N.eqb_refl. constructor.
      * apply I.
      * apply I.
      * cbn [map v_ptr]. constructor; [|apply nodup_drop; apply I]. intros C. apply in_map_iff in C. destruct C as (c & C1 & C2). apply in_drop in C2. apply C2. exact C1.
      * intros c [<-|Hc]; [exists a, k; cbn [v_ptr v_room v_len]; rewrite <- Ep, <- E3; auto|]. apply in_drop in Hc. apply I. apply Hc.
      * intros a' k' F. apply (n_live _ _ _ I) in F. apply in_map_iff in F. destruct F as (c & F1 & F2). cbn [map v_ptr]. destruct (N.eq_dec (v_ptr c) q) as [G|G]; [left; congruence|right]. rewrite <- F1. apply in_map. apply in_drop. auto.
      * intros c i v [<-|Hc]; cbn [v_ptr v_len v_bytes].
        -- intros Hi. destruct (N.ltb_spec i (v_len b)) as [Hi'|]; [|discriminate]. intros Hv. rewrite <- Ep. eapply n_mem; eassumption.
        -- apply in_drop in Hc. apply I. apply Hc.
    + destruct (alloc_ok p size (n_ok _ _ _ I) Hz) as (p' & r & E & O & H). rewrite E. cbn [obind]. destruct r as [q'|]; [|destruct H as [-> H]; eexists _, _; split; [reflexivity|auto]].
      pose proof H as (a' & k' & Eq' & Ha' & Ek' & _ & Em & Ebk). set (f := copy (sh_mem p') q' q (k_size k)).
      assert (I' : linv cap (mkSl q' size size (fun i => if i <? v_len b then v_bytes b i else None) :: l) (set_smem p' f)).
      { apply (linv_add cap l p p' size q' _ _ I O H).
        - intros i v Hi Hv. destruct (N.ltb_spec i (v_len b)) as [Hi'|]; [|discriminate]. unfold f, copy. destruct (N.leb_spec q' (q' + i)), (N.ltb_spec (q' + i) (q' + k_size k)); cbn [andb]; try (clear - Hi' E3 E4 H0 H1; lia).
          replace (q' + i - q') with i by (clear; lia). rewrite Em, <- Ep. eapply n_mem; eassumption.
        - intros x Hx. unfold f, copy. destruct (N.leb_spec q' x), (N.ltb_spec x (q' + k_size k)); cbn [andb]; try (rewrite Em; reflexivity). exfalso. apply Hx. clear - H0 H1 Hgt. lia. }
      assert (Hne : q' <> q). { intros ->. assert (a' = a) by (clear - Eq' E1 Ep; lia). subst a'. congruence. }
      destruct (linv_drop _ _ _ q I') as (p2 & F & I2 & _); [right; exact Hq|]. rewrite F. cbn [obind]. exists p2, (Some q'). split; [reflexivity|]. split; [|exact Logic.I].
      destruct (N.eqb_spec q' q) as [|_]; [contradiction|]. unfold drop_at in I2. cbn [filter v_ptr] in I2. destruct (N.eqb_spec q' q) as [|_]; [contradiction|]. exact I2.
  - destruct (linv_drop cap l p q I L) as (p' & E & I' & _). rewrite E. cbn [obind]. exists p', None. auto.
  - eexists _, _. split; [reflexivity|]. split; [|exact Logic.I]. destruct L as (b & Hb & Hab). assert (Ep : map v_ptr (map (spoke a v) l) = map v_ptr l) by (rewrite map_map; apply map_ext; reflexivity). constructor.
    + apply (n_ok _ _ _ I).
    + apply I.
    + rewrite Ep. apply I.
    + intros c Hc. apply in_map_iff in Hc. destruct Hc as (c' & <- & Hc'). exact (n_blk _ _ _ I c' Hc').
    + rewrite Ep. apply I.
    + intros c i w Hc. apply in_map_iff in Hc. destruct Hc as (c' & <- & Hc'). cbn [spoke v_ptr v_len v_bytes sh_mem set_smem]. intros Hi. unfold fill. destruct (N.eqb_spec (v_ptr c' + i) a) as [E|E].
      * intros Hw. injection Hw as ->. destruct (N.leb_spec a (v_ptr c' + i)), (N.ltb_spec (v_ptr c' + i) (a + 1)); try (clear - E H H0; lia). reflexivity.
      * intros Hw. destruct (N.leb_spec a (v_ptr c' + i)), (N.ltb_spec (v_ptr c' + i) (a + 1)); cbn [andb]; try (clear - E H H0; lia); eapply n_mem; eassumption.
Qed.
Lemma init_ok cap f p : cap < 2 ^ 62 -> shm_init cap f = Some p -> linv cap [] p.
Proof.
  unfold shm_init. change (default_size + 1024) with 2098176. destruct (N.ltb_spec cap 2098176) as [|Hc]; [discriminate|]. intros H62 E. injection E as <-. constructor; cbn [sh_cap sh_segs sh_blks sh_mem map].
  - split; [exact H62|]. split; [constructor; cbn [sh_cap sh_segs sh_blks ordered]; try discriminate; try contradiction; clear - Hc; lia|]. intros s [].
  - reflexivity.
  - constructor.
  - contradiction.
  - discriminate.
  - contradiction.
Qed.
Lemma sreach_inv cap l p : cap < 2 ^ 62 -> sreach cap l p -> linv cap l p.
Proof.
  intros Hc R. induction R as [f p E|l p o p' r R IH L E]; [eapply init_ok; eassumption|]. destruct (step_ok cap l p o IH L) as (p2 & r2 & E2 & I2 & _). rewrite E in E2. injection E2 as <- <-. exact I2.
Qed.

(** ** What the segments say about the blocks *)
Lemma units_lt size : 64 * units size < size + 56 + 64.
Proof. unfold units, blk_hdr, unit. pose proof (N.div_mod (size + 56 + 64 - 1) 64 ltac:(discriminate)) as H. pose proof (N.mod_lt (size + 56 + 64 - 1) 64 ltac:(discriminate)). lia. Qed.
Lemma blk_in_seg cap l p s b a k : linv cap l p -> In s (sh_segs p) -> In b l -> v_ptr b = a + 56 -> sh_blks p a = Some k -> (lies_in s b <-> k_seg k = g_addr s).
Proof.
  intros I Hs Hb E1 E2. destruct (n_ok _ _ _ I) as (_ & I0 & _). destruct (blk_place _ _ _ _ _ I0 E2) as (t & Ht & Et & G1 & G2 & G3). unfold lies_in. rewrite E1, N.add_sub. split.
  - intros [H1 H2]. destruct (ordered_apart _ _ _ _ _ (i_ord _ _ _ I0) Hs Ht) as [->|[C|C]]; [congruence| |]; exfalso; clear - C G1 G2 H1 H2; lia.
  - intros E. assert (t = s) by (eapply ordered_same; [apply I0|exact Ht|exact Hs|congruence]). subst t. clear - G1 G2. lia.
Qed.
Lemma unit_ok cap l p s : linv cap l p -> In s (sh_segs p) -> g_large s = false -> forall k, k < 32768 -> (unit_set s k = true <-> k < 65 \/ exists b, In b l /\ takes s b k).
Proof.
  intros I Hs L k Hk. destruct (n_ok _ _ _ I) as (_ & I0 & _). destruct (i_small _ _ _ I0 s Hs L) as (_ & _ & _ & _ & G). unfold takes. change (unit_set s k) with (bitm (g_map s) k). rewrite (G k Hk). split; (intros [X|X]; [left; exact X|right]).
  - destruct X as (a & x & E1 & E2 & E3). pose proof (n_live _ _ _ I _ _ E1) as Hl. apply in_map_iff in Hl. destruct Hl as (b & F1 & F2). exists b. split; [exact F2|].
    destruct (n_blk _ _ _ I b F2) as (a' & x' & H1 & H2 & H3 & _). assert (a' = a) by (clear - H1 F1; lia). subst a'. assert (x' = x) by congruence. subst x'. split; [eapply blk_in_seg; eassumption|].
    destruct (blk_place _ _ _ _ _ I0 E1) as (t & Ht & Et & _ & _ & K). assert (t = s) by (eapply ordered_same; [apply I0|exact Ht|exact Hs|congruence]). subst t. rewrite L in K. destruct K as (K1 & _). destruct E3 as [E3 E4]. pose proof (units_lt (k_size x)). rewrite F1, <- H3. clear - K1 E3 E4 H; lia.
  - destruct X as (b & Hb & X1 & X2 & X3). destruct (n_blk _ _ _ I b Hb) as (a & x & H1 & H2 & H3 & _). exists a, x. split; [exact H2|]. assert (Ek : k_seg x = g_addr s) by (eapply blk_in_seg; eassumption). split; [exact Ek|].
    destruct (blk_place _ _ _ _ _ I0 H2) as (t & Ht & Et & _ & _ & K). assert (t = s) by (eapply ordered_same; [apply I0|exact Ht|exact Hs|congruence]). subst t. rewrite L in K. destruct K as (K1 & _). pose proof (units_le (k_size x)). rewrite H1, N.add_sub in X2. rewrite H1, <- H3 in X3. unfold covers. clear - K1 X2 X3 H. lia.
Qed.
Lemma seg_busy cap l p s : linv cap l p -> In s (sh_segs p) -> exists b, In b l /\ lies_in s b.
Proof.
  intros I Hs. destruct (n_ok _ _ _ I) as (_ & I0 & Bz). assert (H : exists a k, sh_blks p a = Some k /\ k_seg k = g_addr s). { destruct (g_large s) eqn:L; [apply (i_large _ _ _ I0 s Hs L)|apply (Bz s Hs L)]. }
  destruct H as (a & k & E1 & E2). pose proof (n_live _ _ _ I _ _ E1) as Hl. apply in_map_iff in Hl. destruct Hl as (b & F1 & F2). exists b. split; [exact F2|]. eapply blk_in_seg; try eassumption.
Qed.
Lemma free_segs p b k p' : sh_blks p b = Some k -> shm_free p (b + 56) = Some p' -> exists i s, nth_error (sh_segs p) i = Some s /\ seg_index (k_seg k) (sh_segs p) = Some i /\
  (sh_segs p' = remove_nth i (sh_segs p) \/ exists s', sh_segs p' = upd (sh_segs p) i s' /\ g_addr s' = g_addr s /\ g_size s' = g_size s /\ g_large s' = false /\ g_large s = false).
Proof.
  intros Eb. unfold shm_free. change blk_hdr with 56. destruct (N.ltb_spec (b + 56) 56) as [C|_]; [clear - C; lia|]. rewrite N.add_sub, Eb. cbn [obind]. destruct (seg_index (k_seg k) (sh_segs p)) as [i|]; [|discriminate]. cbn [obind].
  destruct (nth_error (sh_segs p) i) as [s|] eqn:Ei; [|discriminate]. cbn [obind]. cbv zeta. unfold set_segs, set_sblk. cbn [sh_segs sh_cap sh_blks sh_mem]. destruct (g_large s) eqn:L.
  - cbn [obind]. rewrite L. cbn [orb]. intros E. injection E as <-. exists i, s. auto.
  - destruct (mark _ _ _ _ _) as [m|]; [|discriminate]. cbn [obind g_large g_nfree g_base orb]. destruct (_ =? _); intros E; injection E as <-; exists i, s; (split; [exact Ei|]); (split; [reflexivity|]); [left; reflexivity|right]. eexists. cbn [sh_segs]. repeat split. exact L.
Qed.
Lemma seg_index_nth : forall l a i s, seg_index a l = Some i -> nth_error l i = Some s -> g_addr s = a.
Proof.
  induction l as [|x l IH]; cbn [seg_index]; intros a i s E En; [discriminate|]. destruct (N.eqb_spec (g_addr x) a) as [Ex|]; [injection E as <-; injection En as <-; exact Ex|]. destruct (seg_index a l) as [j|] eqn:Ej; [|discriminate]. cbn [option_map] in E. injection E as <-. eapply IH; [exact Ej|exact En].
Qed.
Lemma free_exact cap l p b p' : linv cap l p -> In b l -> shm_free p (v_ptr b) = Some p' -> exists s, In s (sh_segs p) /\ lies_in s b /\
  (forall t, t <> s -> (In t (sh_segs p) -> In t (sh_segs p')) /\ (In t (sh_segs p') -> In t (sh_segs p) \/ g_addr t = g_addr s)) /\
  (((forall c, In c l -> lies_in s c -> c = b) /\ unused p' (g_addr s) (g_size s)) \/
   ((exists c, In c l /\ lies_in s c /\ c <> b) /\ g_large s = false /\ exists s', In s' (sh_segs p') /\ g_addr s' = g_addr s /\ g_size s' = g_size s /\ g_large s' = false /\
      forall k, k < 32768 -> (unit_set s' k = true <-> unit_set s k = true /\ ~ takes s b k))).
Proof.
  intros I Hb E. destruct (n_blk _ _ _ I b Hb) as (a & k & E1 & E2 & E3 & E4). rewrite E1 in E. pose proof (n_ok _ _ _ I) as (_ & I0 & _). destruct (free_segs _ _ _ _ E2 E) as (i & s & Ei & Ex & Hseg).
  pose proof (seg_index_nth _ _ _ _ Ex Ei) as Es. pose proof (nth_error_In _ _ Ei) as Hs. pose proof (i_ord _ _ _ I0) as Ord.
  destruct (linv_drop cap l p (v_ptr b) I (in_map _ _ _ Hb)) as (p2 & F & I2 & _). rewrite E1 in F. assert (p2 = p') by congruence. subst p2. clear F. pose proof (n_ok _ _ _ I2) as (_ & I02 & _).
  exists s. split; [exact Hs|]. split; [apply (blk_in_seg cap l p s b a k I Hs Hb E1 E2); symmetry; exact Es|].
  assert (Hlie : forall c, In c (drop_at (v_ptr b) l) <-> In c l /\ c <> b). { intros c. rewrite in_drop. split; intros [H1 H2]; (split; [exact H1|]); [congruence|]. intros C. apply H2. exact (same_ptr _ _ _ _ _ I H1 Hb C). }
  destruct Hseg as [Hr|(s' & Hu & Ea & Eg & El & Els)].
  - pose proof (fun t => in_remove _ _ _ i s t Ord Ei) as Hin. rewrite Hr. split.
    { intros t Ht. rewrite Hin. split; [|intros [X _]; left; exact X]. intros X. split; [exact X|]. intros C. apply Ht. eapply ordered_same; eassumption. }
    left. split.
    + intros c Hc Hin'. destruct (N.eq_dec (v_ptr c) (v_ptr b)) as [Z|Z]; [exact (same_ptr _ _ _ _ _ I Hc Hb Z)|]. exfalso. assert (Hc2 : In c (drop_at (v_ptr b) l)) by (apply in_drop; auto).
      destruct (n_blk _ _ _ I2 c Hc2) as (a' & k' & X1 & X2 & _). destruct (blk_place _ _ _ _ _ I02 X2) as (t & Ht & Et & G1 & G2 & _). rewrite Hr in Ht. apply Hin in Ht. destruct Ht as [Ht Hn].
      destruct (ordered_apart _ _ _ _ _ Ord Ht Hs) as [->|[C|C]]; [congruence| |]; destruct Hin' as [Y1 Y2]; rewrite X1, N.add_sub in Y1, Y2; clear - C G1 G2 Y1 Y2; lia.
    + unfold unused. destruct (ordered_in _ _ _ _ Ord Hs) as (H1 & H2 & H3). split; [exact H1|]. split; [rewrite (n_cap _ _ _ I2), <- (n_cap _ _ _ I); exact H3|]. rewrite Hr. intros t Ht. apply Hin in Ht. destruct Ht as [Ht Hn]. destruct (ordered_apart _ _ _ _ _ Ord Hs Ht) as [->|C]; [congruence|exact C].
  - rewrite Hu. pose proof (upd_in _ _ _ _ s' Ei) as Hs'. split.
    { intros t Ht. split; [intros X; destruct (in_upd_old _ _ _ _ s' t Ei X); [contradiction|assumption]|]. intros X. destruct (in_upd _ _ _ _ _ t Ei X) as [->|]; [right; exact Ea|left; assumption]. }
    right. split; [|split; [exact Els|]].
    + rewrite <- Hu in Hs'. destruct (seg_busy _ _ _ _ I2 Hs') as (c & Hc & Lc). apply Hlie in Hc. exists c. split; [apply Hc|]. split; [|apply Hc]. unfold lies_in in *. rewrite Ea, Eg in Lc. exact Lc.
    + exists s'. split; [exact Hs'|]. repeat (split; [assumption|]). intros x Hx. rewrite <- Hu in Hs'. rewrite (unit_ok _ _ _ _ I2 Hs' El x Hx), (unit_ok _ _ _ _ I Hs Els x Hx).
      assert (T : forall c, takes s' c x <-> takes s c x) by (intros c; unfold takes, lies_in; rewrite Ea, Eg; reflexivity). split.
      * intros [X|(c & Hc & Tc)].
        -- split; [left; exact X|]. intros [T1 [T2 T3]]. destruct (blk_place _ _ _ _ _ I0 E2) as (t & Ht & Et & _ & _ & G). assert (t = s) by (eapply ordered_same; [exact Ord|exact Ht|exact Hs|congruence]). subst t. rewrite Els in G. destruct G as (G1 & _ & G3 & _). rewrite E1, N.add_sub in T2. clear - X T2 G1 G3. lia.
        -- apply Hlie in Hc. rewrite T in Tc. split; [right; exists c; split; [apply Hc|exact Tc]|]. intros Tb. destruct (n_blk _ _ _ I c (proj1 Hc)) as (a' & k' & X1 & X2 & X3 & _).
           apply (proj2 Hc). eapply same_ptr; [exact I|apply Hc|exact Hb|]. rewrite X1, E1. f_equal.
           assert (Y1 : k_seg k' = g_addr s) by (apply (blk_in_seg cap l p s c a' k' I Hs (proj1 Hc) X1 X2); apply Tc). destruct (blk_place _ _ _ _ _ I0 X2) as (t & Ht & Et & _ & _ & G). assert (t = s) by (eapply ordered_same; [exact Ord|exact Ht|exact Hs|congruence]). subst t.
           destruct (blk_place _ _ _ _ _ I0 E2) as (t & Ht2 & Et2 & _ & _ & G'). assert (t = s) by (eapply ordered_same; [exact Ord|exact Ht2|exact Hs|congruence]). subst t. rewrite Els in G, G'. destruct G as (G1 & _), G' as (G1' & _).
           destruct Tc as [_ [T1 T2]], Tb as [_ [T3 T4]]. rewrite X1, N.add_sub in T1. rewrite X1, <- X3 in T2. rewrite E1, N.add_sub in T3. rewrite E1, <- E3 in T4. pose proof (units_le (k_size k)) as U1. pose proof (units_le (k_size k')) as U2.
           apply (i_dis _ _ _ I0 a' k' a k x X2 E2); [congruence|intros t Ht3 Et3; rewrite (ordered_same _ _ _ t s Ord Ht3 Hs ltac:(congruence)); exact Els| |]; unfold covers; clear - G1 G1' T1 T2 T3 T4 U1 U2; lia.
      * intros [[X|(c & Hc & Tc)] Hn]; [left; exact X|right]. exists c. rewrite T. split; [|exact Tc]. apply Hlie. split; [exact Hc|]. intros ->. contradiction.
Qed.

(** ** The available capacity *)
Definition bytes_ok (l : list seg) : Prop := forall s, In s l -> Forall (fun c => c < 256) (g_map s).
Lemma below_256 x : (forall i, 8 <= i -> N.testbit x i = false) -> x < 256.
Proof.
  intros H. destruct (N.eq_dec x 0) as [->|Hx]; [reflexivity|]. destruct (N.lt_ge_cases (N.log2 x) 8) as [L|L].
  - change 256 with (2 ^ 8). apply N.log2_lt_pow2; [lia|exact L].
  - pose proof (N.bit_log2 x Hx) as B. rewrite H in B by exact L. discriminate.
Qed.
Lemma byte_bits x i : x < 256 -> 8 <= i -> N.testbit x i = false.
Proof. intros Hx Hi. destruct (N.eq_dec x 0) as [->|Hz]; [apply N.bits_0|]. apply N.bits_above_log2. assert (N.log2 x < 8) by (apply N.log2_lt_pow2; [lia|exact Hx]). lia. Qed.
Lemma lor_byte c i : c < 256 -> i < 8 -> N.lor c (N.shiftl 1 i) < 256.
Proof. intros Hc Hi. apply below_256. intros j Hj. rewrite lor_bit. destruct (N.eqb_spec i j); [lia|apply byte_bits; assumption]. Qed.
Lemma ldiff_byte c i : c < 256 -> i < 8 -> N.ldiff c (N.shiftl 1 i) < 256.
Proof. intros Hc Hi. apply below_256. intros j Hj. rewrite ldiff_bit. destruct (N.eqb_spec i j); [reflexivity|apply byte_bits; assumption]. Qed.
Lemma upd_Forall A (P : A -> Prop) l i x : Forall P l -> P x -> Forall P (upd l i x).
Proof.
  intros H Hx. rewrite Forall_forall in *. intros y Hy. apply In_nth_error in Hy. destruct Hy as [j Hj]. rewrite nth_error_upd in Hj. destruct (Nat.eqb_spec i j) as [->|]; [destruct (j <? length l)%nat; [injection Hj as <-; exact Hx|discriminate]|]. apply H. eapply nth_error_In. exact Hj.
Qed.
Lemma mark_bytes f : (forall c i, c < 256 -> i < 8 -> f c (N.shiftl 1 i) < 256) -> forall n m b i m', (i <= 7)%nat -> Forall (fun c => c < 256) m -> mark f n m b i = Some m' -> Forall (fun c => c < 256) m'.
Proof.
  intros Hf. induction n as [|n IH]; cbn [mark]; intros m b i m' Hi Hm E; [injection E as <-; exact Hm|]. destruct (nth_error m b) as [c|] eqn:Ec; [|discriminate]. cbn [obind] in E.
  assert (H1 : Forall (fun c => c < 256) (upd m b (f c (N.shiftl 1 (N.of_nat i))))). { apply upd_Forall; [exact Hm|]. apply Hf; [|lia]. rewrite Forall_forall in Hm. apply Hm. eapply nth_error_In. exact Ec. }
  destruct i as [|i]; [apply (IH _ _ _ _ (le_n 7) H1 E)|]. eapply (IH _ _ i); [lia|exact H1|exact E].
Qed.
Lemma carve_bytes p i s x size p' q : bytes_ok (sh_segs p) -> (snd x <= 7)%nat -> nth_error (sh_segs p) i = Some s -> carve p i x size = Some (p', q) -> bytes_ok (sh_segs p').
Proof.
  intros H Hx Ei. unfold carve. destruct x as [B b]. cbn [snd] in Hx. rewrite Ei. cbn [obind]. destruct (mark _ _ _ _ _) as [m|] eqn:Em; [|discriminate]. cbn [obind]. intros E. injection E as <- _. cbn [set_sblk set_segs sh_segs].
  intros t Ht. destruct (in_upd _ _ _ _ _ t Ei Ht) as [->|Ht']; [|apply H; exact Ht']. cbn [g_map]. eapply mark_bytes; [exact lor_byte|exact Hx| |exact Em]. apply H. eapply nth_error_In. exact Ei.
Qed.
Lemma small_bytes a : Forall (fun c => c < 256) (g_map (small_seg a)).
Proof.
  unfold small_seg. cbn [g_map]. cbv zeta. destruct (mark N.lor (N.to_nat hdr_units) (repeat 0 map_len) 0 7) as [m|] eqn:E; [|constructor]. eapply mark_bytes; [exact lor_byte| | |exact E]; [lia|].
  apply Forall_forall. intros x Hx. apply repeat_spec in Hx. subst x. reflexivity.
Qed.
Lemma alloc_bytes p size p' r : ok p -> bytes_ok (sh_segs p) -> shm_alloc p size = Some (p', r) -> bytes_ok (sh_segs p').
Proof.
  intros (Hc & I & _) H. unfold shm_alloc. destruct (large_size <? size).
  - unfold shm_large. destruct (place _ _ _ _ _) as [[l i]|] eqn:P; [|intros E; injection E as <- _; exact H]. destruct (nth_error l i) as [s|]; [|discriminate]. cbn [obind]. intros E. injection E as <- _. cbn [set_sblk set_segs sh_segs].
    assert (Hl : forall lo k l' j, place (sh_cap p) k (large_seg k) lo (sh_segs p) = Some (l', j) -> forall t, In t l' -> g_map t = [] \/ In t (sh_segs p)).
    { clear. generalize (sh_segs p). intros sg lo k. revert lo. induction sg as [|x xs IH]; intros lo l' j; cbn [place].
      - destruct (_ <? _); [discriminate|]. intros E. injection E as <- _. intros t [<-|[]]. left. reflexivity.
      - destruct (_ <=? _); [intros E; injection E as <- _; intros t [<-|Ht]; [left; reflexivity|right; exact Ht]|]. destruct (place _ _ _ _ xs) as [[l2 j2]|] eqn:E2; [|intros E; discriminate E]. cbn [obind fst snd]. intros E. injection E as <- _.
        intros t [<-|Ht]; [right; left; reflexivity|]. destruct (IH _ _ _ E2 t Ht); [left; assumption|right; right; assumption]. }
    intros t Ht. destruct (Hl _ _ _ _ P t Ht) as [->|Ht']; [constructor|apply H; exact Ht'].
  - pose proof (find_ok size (sh_segs p)) as F. destruct (find_seg (sh_segs p) size) as [[i x]|].
    + destruct F as (s & Ei & Ex). destruct (carve p i x size) as [[p1 q1]|] eqn:Ec; [|discriminate]. cbn [obind fst snd]. intros E. injection E as <- _. eapply carve_bytes; try eassumption. apply (allowed_ok _ _ _ Ex).
    + destruct (place _ _ _ _ _) as [[l i]|] eqn:P; [|intros E; injection E as <- _; exact H].
      pose proof (place_ok (sh_cap p) default_size small_seg Hc ltac:(change default_size with 2097152; clear; lia) ltac:(intros a; split; apply (small_seg_ok a)) _ _ (i_ord _ _ _ I)) as Q. change pool_hdr with 2048 in P. rewrite P in Q.
      destruct Q as (l1 & l2 & a & E1 & E2 & E3 & _). destruct (nth_error l i) as [s|] eqn:Ei; [|discriminate]. cbn [obind]. destruct (allowed s size) as [x|] eqn:Ex; [|discriminate]. cbn [obind].
      destruct (carve (set_segs p l) i x size) as [[p1 q1]|] eqn:Ec; [|discriminate]. cbn [obind fst snd]. intros E. injection E as <- _. apply (carve_bytes (set_segs p l) i s x size p1 q1); [|apply (allowed_ok _ _ _ Ex)|exact Ei|exact Ec].
      cbn [set_segs sh_segs]. rewrite E2. intros t Ht. apply in_app_iff in Ht. rewrite E1 in H. destruct Ht as [Ht|[<-|Ht]]; [apply H, in_app_iff; left; exact Ht|apply small_bytes|apply H, in_app_iff; right; exact Ht].
Qed.
Lemma remove_nth_in A : forall i (l : list A) t, In t (remove_nth i l) -> In t l.
Proof. induction i as [|i IH]; intros [|x l] t H; cbn [remove_nth] in *; try contradiction; [right; exact H|]. destruct H as [->|H]; [left; reflexivity|right; apply IH; exact H]. Qed.
Lemma free_bytes p q p' : ok p -> bytes_ok (sh_segs p) -> shm_free p q = Some p' -> bytes_ok (sh_segs p').
Proof.
  intros (_ & I & _) H. unfold shm_free. destruct (q <? blk_hdr); [discriminate|]. destruct (sh_blks p (q - blk_hdr)) as [k|] eqn:Ek; [|discriminate]. cbn [obind]. destruct (seg_index (k_seg k) (sh_segs p)) as [i|] eqn:Ex; [|discriminate]. cbn [obind].
  destruct (nth_error (sh_segs p) i) as [s|] eqn:Ei; [|discriminate]. cbn [obind]. cbv zeta. unfold set_segs, set_sblk. cbn [sh_segs sh_cap sh_blks sh_mem].
  destruct (i_blk _ _ _ I _ _ Ek) as (t & Ht & Et & G). pose proof (seg_index_nth _ _ _ _ Ex Ei) as Es. assert (t = s) by (eapply ordered_same; [apply I|exact Ht|eapply nth_error_In; exact Ei|congruence]). subst t. destruct (g_large s) eqn:L.
  - cbn [obind]. rewrite L. cbn [orb]. intros E. injection E as <-. cbn [sh_segs]. intros t Ht'. apply H. eapply remove_nth_in. exact Ht'.
  - destruct (mark _ _ _ _ _) as [m|] eqn:Em; [|discriminate]. cbn [obind g_large g_nfree g_base orb]. destruct G as (_ & G & _).
    destruct (_ =? _); intros E; injection E as <-; cbn [sh_segs]; intros t Ht'; [apply H; eapply remove_nth_in; exact Ht'|]. destruct (in_upd _ _ _ _ _ t Ei Ht') as [->|Ht2]; [|apply H; exact Ht2]. cbn [g_map]. eapply mark_bytes; [exact ldiff_byte| | |exact Em]; [clear - G; lia|apply H; exact Ht].
Qed.
Lemma step_bytes cap l p o p' r : linv cap l p -> slegal l o -> bytes_ok (sh_segs p) -> shm_step p o = Some (p', r) -> bytes_ok (sh_segs p').
Proof.
  intros I L H. pose proof (n_ok _ _ _ I) as O. destruct o as [size|size|q size|q|a v]; cbn [shm_step].
  - apply alloc_bytes; assumption.
  - unfold shm_zero. destruct (shm_alloc p size) as [[p1 [q|]]|] eqn:E; [| |discriminate]; cbn [obind]; intros E1; injection E1 as <- _; exact (alloc_bytes p size p1 _ O H E).
  - unfold shm_re. destruct (size =? 0).
    + destruct (shm_free p q) as [p1|] eqn:E; [|discriminate]. cbn [obind]. intros E1. injection E1 as <- _. eapply free_bytes; eassumption.
    + destruct (q <? blk_hdr); [discriminate|]. destruct (sh_blks p (q - blk_hdr)) as [k|]; [|discriminate]. cbn [obind]. destruct (size <=? k_size k); [intros E1; injection E1 as <- _; exact H|].
      destruct (alloc_ok p size O ltac:(apply L)) as (p1 & r1 & E & O1 & _). rewrite E. cbn [obind]. pose proof (alloc_bytes _ _ _ _ O H E) as H1. destruct r1 as [q'|]; [|intros E1; injection E1 as <- _; exact H1].
      destruct (shm_free (set_smem p1 (copy (sh_mem p1) q' q (k_size k))) q) as [p2|] eqn:E2; [|discriminate]. cbn [obind]. intros E1. injection E1 as <- _. apply (free_bytes _ _ _ (ok_mem _ _ O1) H1 E2).
  - destruct (shm_free p q) as [p1|] eqn:E; [|discriminate]. cbn [obind]. intros E1. injection E1 as <- _. eapply free_bytes; eassumption.
  - intros E. injection E as <- _. exact H.
Qed.
Lemma sreach_bytes cap l p : cap < 2 ^ 62 -> sreach cap l p -> bytes_ok (sh_segs p).
Proof.
  intros Hc R. induction R as [f p E|l p o p' r R IH L E].
  - unfold shm_init in E. destruct (cap <? _); [discriminate|]. injection E as <-. intros s [].
  - eapply step_bytes; [eapply sreach_inv; eassumption| | |]; eassumption.
Qed.
Lemma count_byte c : c < 256 -> N.of_nat (length (filter (fun k => negb (bitm [c] (N.of_nat k))) (seq 0 8))) + count_bits c = 8.
Proof.
  intros H. assert (A : forallb (fun c => N.of_nat (length (filter (fun k => negb (bitm [c] (N.of_nat k))) (seq 0 8))) + count_bits c =? 8) (map N.of_nat (seq 0 256)) = true) by (vm_compute; reflexivity).
  rewrite forallb_forall in A. apply N.eqb_eq. apply A. rewrite <- (N2Nat.id c). apply in_map. apply in_seq. lia.
Qed.
Lemma filter_map_len A B (g : A -> B) (f : B -> bool) l : length (filter f (map g l)) = length (filter (fun x => f (g x)) l).
Proof. induction l as [|x l IH]; [reflexivity|]. cbn [map filter]. destruct (f (g x)); cbn [length]; rewrite IH; reflexivity. Qed.
Lemma seq_add d n : forall z, seq (d + z) n = map (fun k => (d + k)%nat) (seq z n).
Proof. induction n as [|n IH]; intros z; [reflexivity|]. cbn [seq map]. f_equal. rewrite <- IH. f_equal. lia. Qed.
Lemma seq_shift8 n : seq 8 n = map (fun k => (8 + k)%nat) (seq 0 n).
Proof. exact (seq_add 8 n 0). Qed.
Lemma bit_tail c m k : bitm (c :: m) (8 + k) = bitm m k.
Proof.
  unfold bitm. replace (8 + k) with (k + 1 * 8) by lia. rewrite N.div_add, N.mod_add by discriminate. replace (N.to_nat (k / 8 + 1)) with (S (N.to_nat (k / 8))) by lia. reflexivity.
Qed.
Lemma bit_head c m k : k < 8 -> bitm (c :: m) k = bitm [c] k.
Proof. intros H. unfold bitm. rewrite N.div_small by exact H. reflexivity. Qed.
Lemma count_clear : forall m, Forall (fun c => c < 256) m -> forall z, fold_left (fun a c => a + count_bits c) m z + N.of_nat (clear_count m) = z + 8 * N.of_nat (length m).
Proof.
  induction m as [|c m IH]; intros H z; [cbn [fold_left length]; change (clear_count []) with 0%nat; lia|]. inversion H as [|? ? H1 H2]; subst. cbn [fold_left]. specialize (IH H2 (z + count_bits c)). pose proof (count_byte c H1) as B.
  assert (E : clear_count (c :: m) = (length (filter (fun k => negb (bitm [c] (N.of_nat k))) (seq 0 8)) + clear_count m)%nat).
  { unfold clear_count. cbn [length]. replace (8 * S (length m))%nat with (8 + 8 * length m)%nat by lia. rewrite seq_app, filter_app, app_length. apply f_equal2.
    - reflexivity.
    - change (0 + 8)%nat with 8%nat. rewrite seq_shift8, filter_map_len. f_equal. apply filter_ext. intros k. f_equal. rewrite <- (bit_tail c m). f_equal. lia. }
  rewrite E. cbn [length]. lia.
Qed.
Lemma available_ok cap l p s : cap < 2 ^ 62 -> sreach cap l p -> sh_segs p = [s] -> g_large s = false ->
  shm_available p = Some (64 * N.of_nat (length (filter (fun k => negb (unit_set s (N.of_nat k))) (seq 0 (8 * length (g_map s)))))).
Proof.
  intros Hc R Es L. pose proof (sreach_bytes _ _ _ Hc R s ltac:(rewrite Es; left; reflexivity)) as B. pose proof (sreach_inv _ _ _ Hc R) as I. destruct (n_ok _ _ _ I) as (_ & I0 & _). destruct (i_small _ _ _ I0 s ltac:(rewrite Es; left; reflexivity) L) as (_ & Lm & _).
  pose proof ML as M. pose proof (count_clear (g_map s) B 0) as C. rewrite Lm, M, N.add_0_l in C. change (8 * 4096) with 32768 in C. fold (clear_count (g_map s)). change (fun k => negb (unit_set s (N.of_nat k))) with (fun k => negb (bitm (g_map s) (N.of_nat k))). fold (clear_count (g_map s)).
  unfold shm_available. rewrite Es. cbn [existsb]. rewrite L. cbn [orb fold_left]. cbv zeta. set (sum := fold_left (fun a c => a + count_bits c) (g_map s) 0) in *. set (cl := N.of_nat (clear_count (g_map s))) in *. clearbody sum cl.
  change (N.shiftl (N.of_nat map_len) 3) with 32768. change unit with 64. change (2 ^ 64) with 18446744073709551616. clear - C. f_equal.
  rewrite (N.mod_small sum) by lia. replace (32768 + 18446744073709551616 - sum) with (cl + 1 * 18446744073709551616) by lia. rewrite N.mod_add by discriminate. rewrite (N.mod_small cl) by lia. rewrite N.mod_small by lia. lia.
Qed.

Require Import List Arith NArith ZArith Lia Bool.
Require Import Verif.Base Verif.StrModel Verif.StrSpec.
Import ListNotations.

Lemma length_tl {A} (l : list A) : length (tl l) = length l - 1.
Proof. destruct l; cbn; lia. Qed.

Lemma nonempty {A} (l : list A) : l <> [] -> exists h t, l = h :: t.
Proof. destruct l; [congruence|eauto]. Qed.
Lemma compute_prefix_eq l h t : l = h :: t -> compute_prefix l = prefix_loop t l 0 [0].
Proof. intros ->. reflexivity. Qed.

Section Kmp.
Variable p : list N.
Let m := length p.

(** [k] characters of the pattern end the text [t]. *)
Definition sfx (k : nat) (t : list N) : Prop := k <= m /\ exists u, t = u ++ firstn k p.
Definition ismax (k : nat) (t : list N) : Prop := sfx k t /\ forall k', sfx k' t -> k' <= k.

Lemma sfx_0 t : sfx 0 t.
Proof. split; [lia|]. exists t. cbn. now rewrite app_nil_r. Qed.

Lemma sfx_len k t : sfx k t -> k <= length t.
Proof.
  intros [H [u ->]]. rewrite app_length, firstn_length. fold m. lia.
Qed.

Lemma firstn_S (k : nat) c : nth_error p k = Some c -> firstn (S k) p = firstn k p ++ [c].
Proof.
  revert k. generalize p. induction p0 as [|h t IH]; intros [|k] H; cbn in *; try discriminate.
  - injection H as ->. reflexivity.
  - f_equal. apply IH; auto.
Qed.

Lemma sfx_snoc k t c : S k <= m -> (sfx (S k) (t ++ [c]) <-> sfx k t /\ nth_error p k = Some c).
Proof.
  intros Hk. split.
  - intros [_ [u E]].
    destruct (nth_error p k) as [d|] eqn:Ed; [|apply nth_error_None in Ed; unfold m in Hk; lia].
    rewrite (firstn_S k d Ed), app_assoc in E.
    apply app_inj_tail in E as [E ->]. split; auto. split; [lia|]. eauto.
  - intros [[_ [u ->]] Hc]. split; auto. exists u. rewrite (firstn_S k c Hc), app_assoc. reflexivity.
Qed.

(** Two suffixes of the same text: the shorter ends the longer. *)
Lemma suffix_of {A} (a b u v : list A) : u ++ a = v ++ b -> length a <= length b -> exists w, b = w ++ a.
Proof.
  revert u v. intros u v E H. exists (firstn (length b - length a) b).
  assert (E2 : skipn (length b - length a) b = a).
  { assert (L : length u + length a = length v + length b)
      by (rewrite <- !app_length; congruence).
    assert (S1 : skipn (length u) (u ++ a) = a) by (rewrite skipn_app, skipn_all, Nat.sub_diag; reflexivity).
    rewrite E in S1. rewrite skipn_app in S1.
    rewrite skipn_all2 in S1 by lia. cbn in S1.
    replace (length b - length a) with (length u - length v) by lia. exact S1. }
  rewrite <- E2 at 2. now rewrite firstn_skipn.
Qed.

Lemma sfx_sub q k t : sfx q t -> k < q -> (sfx k t <-> sfx k (tl (firstn q p))).
Proof.
  intros [Hq [u Eu]] Hk. split.
  - intros [Hk2 [v Ev]]. split; auto.
    destruct (suffix_of (firstn k p) (firstn q p) v u) as [w Ew].
    + congruence.
    + rewrite !firstn_length. lia.
    + destruct w as [|x w].
      * exfalso. cbn in Ew. apply (f_equal (@length N)) in Ew. rewrite !firstn_length in Ew. fold m in Ew. lia.
      * rewrite Ew. cbn. eauto.
  - intros [Hk2 [w Ew]]. split; auto.
    destruct (firstn q p) as [|x l] eqn:E.
    + apply (f_equal (@length N)) in E. rewrite firstn_length in E. fold m in E. cbn in E. lia.
    + cbn in Ew. subst l. rewrite Eu. exists (u ++ [x] ++ w). rewrite <- !app_assoc. reflexivity.
Qed.

(** Entry for prefix length r is the longest proper border. *)
Definition table_ok (n : nat) (shift : list nat) : Prop :=
  forall r, 1 <= r <= n -> exists k, nth_error shift (r - 1) = Some k /\ ismax k (tl (firstn r p)).

Lemma kmp_fall_ok shift n t c : table_ok n shift -> forall fuel q, q < fuel -> q <= n -> q < m -> sfx q t ->
  exists r, kmp_fall fuel p shift c q = Some r /\ r <= q /\ sfx r t /\
    (r = 0 \/ nth_error p r = Some c) /\
    (forall k, k <= q -> sfx k t -> nth_error p k = Some c -> k <= r).
Proof.
  intros Ht. induction fuel as [|f IH]; intros q Hf Hn Hm Hs; [lia|].
  cbn [kmp_fall]. destruct (Nat.eqb_spec q 0) as [->|Hq].
  - exists 0. split; [reflexivity|]. split; [lia|]. split; [apply sfx_0|]. split; [auto|]. intros; lia.
  - destruct (nth_error p q) as [d|] eqn:Ed; [|apply nth_error_None in Ed; unfold m in Hm; lia].
    cbn [obind]. destruct (N.eqb_spec d c) as [->|Hd].
    + exists q. repeat split; auto; try lia; apply Hs.
    + destruct (Ht q ltac:(lia)) as (k & Ek & Hk). rewrite Ek. cbn [obind].
      assert (Hkq : k < q).
      { destruct Hk as [Hk _]. apply sfx_len in Hk.
        assert (length (tl (firstn q p)) = q - 1).
        { rewrite length_tl, firstn_length. fold m. lia. }
        lia. }
      assert (Hsk : sfx k t) by (exact (proj2 (sfx_sub q k t Hs Hkq) (proj1 Hk))).
      destruct (IH k ltac:(lia) ltac:(lia) ltac:(lia) Hsk) as (r & Er & H1 & H2 & H3 & H4).
      exists r. split; auto. split; [lia|]. split; auto. split; auto.
      intros j Hj Hsj Hcj. destruct (Nat.eq_dec j q) as [->|Hjq]; [congruence|].
      apply H4; auto. apply Hk. exact (proj1 (sfx_sub q j t Hs ltac:(lia)) Hsj).
Qed.

Lemma kmp_step_ok shift n t c q : table_ok n shift -> q <= n -> q < m -> ismax q t ->
  exists q', kmp_step p shift c q = Some q' /\ ismax q' (t ++ [c]) /\ q' <= S q.
Proof.
  intros Ht Hn Hm [Hs Hmax]. unfold kmp_step.
  destruct (kmp_fall_ok shift n t c Ht (S q) q ltac:(lia) Hn Hm Hs) as (r & Er & H1 & H2 & H3 & H4).
  rewrite Er. cbn [obind].
  destruct (nth_error p r) as [d|] eqn:Ed; [|apply nth_error_None in Ed; unfold m in Hm; lia].
  cbn [obind]. eexists; split; [reflexivity|].
  destruct (N.eqb_spec d c) as [->|Hd].
  - split; [|lia]. split.
    + apply sfx_snoc; [lia|]. auto.
    + intros [|k'] Hk'; [lia|]. pose proof (proj1 Hk') as Hk'm.
      apply sfx_snoc in Hk' as [Ha Hb]; auto. specialize (H4 k' (Hmax k' Ha) Ha Hb). lia.
  - split; [|lia]. destruct H3 as [->|H3]; [|congruence]. split; [apply sfx_0|].
    intros [|k'] Hk'; [lia|]. pose proof (proj1 Hk') as Hk'm.
    apply sfx_snoc in Hk' as [Ha Hb]; auto. specialize (H4 k' (Hmax k' Ha) Ha Hb).
    assert (k' = 0) by lia. subst k'. congruence.
Qed.

Lemma tl_firstn_snoc h t q c : p = h :: t -> 1 <= q -> nth_error p q = Some c ->
  tl (firstn (S q) p) = tl (firstn q p) ++ [c].
Proof.
  intros E Hq Hc. rewrite (firstn_S q c Hc). destruct (firstn q p) as [|x l] eqn:Ef.
  - apply (f_equal (@length N)) in Ef. rewrite firstn_length, E in Ef. cbn in Ef. lia.
  - reflexivity.
Qed.

Lemma table_snoc h t q k shift : p = h :: t -> length shift = q -> 1 <= q -> table_ok q shift ->
  ismax k (tl (firstn (S q) p)) -> table_ok (S q) (shift ++ [k]).
Proof.
  intros E Hl Hq Ht Hk r Hr. destruct (Nat.eq_dec r (S q)) as [->|Hne].
  - exists k. split; auto. replace (S q - 1) with (length shift) by lia.
    rewrite nth_error_app2, Nat.sub_diag by lia. reflexivity.
  - destruct (Ht r ltac:(lia)) as (k' & Ek & Hk'). exists k'. split; auto.
    rewrite nth_error_app1 by lia. exact Ek.
Qed.

Lemma prefix_loop_ok h t : p = h :: t -> forall todo q k shift,
  todo = skipn q p -> length shift = q -> 1 <= q -> q <= m -> table_ok q shift -> ismax k (tl (firstn q p)) ->
  exists sh, prefix_loop todo p k shift = Some sh /\ table_ok m sh.
Proof.
  intros E. induction todo as [|c todo IH]; intros q k shift Hsk Hl Hq Hqm Ht Hk; cbn [prefix_loop].
  - exists shift. split; auto. assert (q = m).
    { apply (f_equal (@length N)) in Hsk. rewrite skipn_length in Hsk. cbn in Hsk. unfold m in *. lia. }
    subst q. rewrite H in Ht. exact Ht.
  - assert (Hqlt : q < m).
    { apply (f_equal (@length N)) in Hsk. rewrite skipn_length in Hsk. cbn in Hsk. unfold m in *. lia. }
    assert (Hc : nth_error p q = Some c).
    { rewrite <- (firstn_skipn q p), <- Hsk. rewrite nth_error_app2; rewrite firstn_length; fold m; [|lia].
      replace (q - Nat.min q m) with 0 by lia. reflexivity. }
    assert (Hkq : k < q).
    { destruct Hk as [Hk _]. apply sfx_len in Hk. rewrite length_tl, firstn_length in Hk. fold m in Hk. lia. }
    destruct (kmp_step_ok shift q (tl (firstn q p)) c k Ht ltac:(lia) ltac:(lia) Hk) as (k' & Ek & Hk' & _).
    rewrite Ek. cbn [obind]. rewrite <- (tl_firstn_snoc h t q c E Hq Hc) in Hk'.
    apply (IH (S q)); auto; try lia.
    + assert (G : forall (l : list N) n x r, x :: r = skipn n l -> r = skipn (S n) l).
      { induction l as [|y l IHl]; intros [|n] x r H; cbn in H.
        - discriminate.
        - discriminate.
        - injection H as -> ->. reflexivity.
        - cbn [skipn]. apply (IHl n x r H). }
      eapply G; eauto.
    + rewrite app_length. cbn. lia.
    + eapply table_snoc; eauto.
Qed.

Lemma compute_prefix_ok : p <> [] -> exists sh, compute_prefix p = Some sh /\ table_ok m sh.
Proof.
  intros Hp. destruct (nonempty p Hp) as (h & t & E). rewrite (compute_prefix_eq p h t E).
  assert (Hm : 1 <= m) by (unfold m; rewrite E; cbn; lia).
  assert (H1 : ismax 0 (tl (firstn 1 p))).
  { rewrite E; cbn. split; [apply sfx_0|]. intros k' Hk'. apply sfx_len in Hk'. cbn in Hk'. lia. }
  eapply (prefix_loop_ok h t E t 1 0 [0]); auto.
  - rewrite E. reflexivity.
  - intros r Hr. assert (r = 1) by lia. subst r. exists 0. split; [reflexivity|]. exact H1.
Qed.

Lemma occ_sfx t i : occurs_at t p i <-> i + m <= length t /\ sfx m (firstn (i + m) t).
Proof.
  split.
  - intros (a & b & -> & <-). rewrite !app_length. fold m. split; [lia|].
    split; [lia|]. exists a. unfold m. rewrite firstn_all. rewrite app_assoc, firstn_app.
    rewrite app_length. replace (length a + length p - (length a + length p)) with 0 by lia.
    cbn. rewrite app_nil_r. rewrite firstn_all2; auto. rewrite app_length; lia.
  - intros [Hl [_ [u Eu]]]. unfold m in *. rewrite firstn_all in Eu.
    exists u, (skipn (i + length p) t). split.
    + rewrite app_assoc, <- Eu, firstn_skipn. reflexivity.
    + apply (f_equal (@length N)) in Eu. rewrite firstn_length, app_length in Eu. lia.
Qed.

Lemma kmp_loop_ok sh text : p <> [] -> table_ok m sh -> forall todo done q,
  text = done ++ todo -> ismax q done -> q < m ->
  (forall j, occurs_at text p j -> length done < j + m) ->
  exists r, kmp_loop todo (length done) p sh q = Some r /\
    match r with
    | Some pos => first_occurrence text p pos
    | None => forall j, ~ occurs_at text p j
    end.
Proof.
  intros Hp Ht. induction todo as [|c todo IH]; intros done q Etxt Hq Hqm Hno; cbn [kmp_loop].
  - exists None. split; auto. intros j Hj. pose proof Hj as Hj'. apply Hno in Hj.
    apply occ_sfx in Hj' as [Hl _]. rewrite Etxt, app_nil_r in Hl. lia.
  - destruct (kmp_step_ok sh m done c q Ht ltac:(lia) Hqm Hq) as (q' & Eq & Hq' & _).
    rewrite Eq. cbn [obind].
    assert (Hf : firstn (S (length done)) text = done ++ [c]).
    { rewrite Etxt. replace (S (length done)) with (length done + 1) by lia.
      rewrite firstn_app_2. reflexivity. }
    destruct (Nat.eqb_spec q' (length p)) as [Em|Em].
    + eexists; split; [reflexivity|]. cbv iota beta.
      pose proof (sfx_len _ _ (proj1 Hq')) as Hlen. rewrite app_length in Hlen. cbn in Hlen.
      split.
      * apply occ_sfx. replace (length done + 1 - length p + m) with (S (length done)) by (unfold m; lia).
        rewrite Hf. split.
        { rewrite Etxt, app_length. cbn. lia. }
        { unfold m. rewrite <- Em. apply Hq'. }
      * intros j Hj. apply Hno in Hj. unfold m in Hj. lia.
    + assert (Hq'm : q' < m). { pose proof (proj1 (proj1 Hq')). unfold m in *. lia. }
      replace (S (length done)) with (length (done ++ [c])) by (rewrite app_length; cbn; lia).
      apply IH; auto.
      * rewrite <- app_assoc. exact Etxt.
      * intros j Hj. pose proof Hj as Hj'. apply Hno in Hj. rewrite app_length; cbn.
        destruct (Nat.eq_dec (j + m) (S (length done))) as [E|E]; [|lia].
        exfalso. apply occ_sfx in Hj' as [_ Hs]. rewrite E, Hf in Hs.
        apply Hq' in Hs. lia.
Qed.

Lemma kmp_match_ok text : p <> [] ->
  exists r, kmp_match text p = Some r /\
    match r with
    | Some pos => first_occurrence text p pos
    | None => forall j, ~ occurs_at text p j
    end.
Proof.
  intros Hp. unfold kmp_match. destruct (compute_prefix_ok Hp) as (sh & E & Ht). rewrite E. cbn [obind].
  assert (Hm : 0 < m) by (destruct (nonempty p Hp) as (h0 & t0 & E0); unfold m; rewrite E0; cbn; lia).
  apply (kmp_loop_ok sh text Hp Ht text [] 0); auto.
  - split; [apply sfx_0|]. intros k Hk. apply sfx_len in Hk. exact Hk.
  - intros j _. cbn. lia.
Qed.
End Kmp.

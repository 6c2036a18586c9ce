Require Import List Arith NArith Lia Bool.
Require Import ZifyBool ZifyNat ZifyN.
Require Import Verif.Base Verif.ArrayModel Verif.ArraySpec.
Import ListNotations.
Open Scope N_scope.

Lemma wrap_small x : x < 2^64 -> wrap x = x.
Proof. intros H. unfold wrap. apply N.mod_small. exact H. Qed.

Lemma grow_ok K : 2 * K < 2^64 -> forall fuel need num, 0 < num -> need <= K -> num <= 2 * K ->
  need <= num * 2 ^ (N.of_nat fuel) -> exists num', grow (S fuel) need num = Ok num' /\ need <= num' /\ num <= num' /\ num' <= 2 * K.
Proof.
  intros HK. induction fuel as [|f IH]; intros need num H0 H1 H2 H3.
  - change (2 ^ N.of_nat 0) with 1 in H3. cbn [grow]. destruct (N.ltb_spec num need); [lia|]. exists num; repeat split; lia.
  - cbn [grow]. destruct (N.ltb_spec num need) as [Hlt|Hge].
    + rewrite wrap_small by lia. rewrite Nat2N.inj_succ, N.pow_succ_r' in H3.
      change (exists num', grow (S f) need (2 * num) = Ok num' /\ need <= num' /\ num <= num' /\ num' <= 2 * K).
      destruct (IH need (2 * num)) as (n' & E & A & B & C); try lia. exists n'. repeat split; auto; lia.
    + exists num; repeat split; lia.
Qed.

Section P.
Context {V : Type}.
Implicit Types (a : arr V) (l : list (option V)).

Definition ainv (s K : N) a l : Prop :=
  esize a = s /\ nelts a = len l /\ nbytes a = nalloc a * s /\ 0 < nalloc a /\ nelts a <= nalloc a /\ nalloc a <= 2 * K /\
  forall i v, nth_error l (N.to_nat i) = Some v -> agree v (buf a i).

Definition fits (s K : N) : Prop := 2 * K * (s + 1) < 2^64.

Lemma fits1 s K x : fits s K -> x <= 2 * K -> x < 2^64 /\ x * s < 2^64.
Proof. unfold fits. intros H Hx. split; nia. Qed.

Lemma alloc_ok s K ok a l n : fits s K -> ainv s K a l -> len l + n <= K ->
  exists r, arr_alloc ok a n = Ok r /\
    match r with
    | (a', true) => ainv s K a' l /\ len l + n <= nalloc a'
    | (a', false) => a' = a
    end.
Proof.
  intros Hf (H1 & H2 & H3 & H4 & H5 & H6 & H7) Hn. unfold arr_alloc.
  assert (HK : 2 * K < 2^64) by (unfold fits in Hf; nia).
  rewrite wrap_small by lia.
  destruct (grow_ok K HK 65%nat (n + nelts a) (nalloc a)) as (num & E & A & B & C); auto; try lia.
  change 66%nat with (S 65). rewrite E. cbn [rbind].
  destruct (fits1 s K num Hf C) as [_ Hb]. rewrite H1. rewrite (wrap_small (num * s)) by auto.
  destruct (ok (num * s)); cbn [negb].
  - rewrite (wrap_small (nelts a * s)) by nia. rewrite H3.
    destruct (N.leb_spec (nelts a * s) (nalloc a * s)); [|nia].
    destruct (N.leb_spec (nelts a * s) (num * s)); [|nia]. cbn [andb].
    eexists. split; [reflexivity|]. cbn beta iota. split; [|cbn; lia].
    unfold ainv. cbn [esize nelts nbytes nalloc buf]. repeat split; auto; try lia.
    intros i v Hi. assert (N.to_nat i < length l)%nat by (apply nth_error_Some; congruence).
    destruct (N.ltb_spec i (nelts a)); [auto|]. unfold len in H2. lia.
  - eexists. split; [reflexivity|]. reflexivity.
Qed.

Lemma nth_repeat_none k i (v : option V) : nth_error (repeat None k) i = Some v -> v = None.
Proof. intros H. apply nth_error_In in H. apply repeat_spec in H. auto. Qed.

Lemma grown_inv s K a l n : fits s K -> ainv s K a l -> len l + n <= nalloc a ->
  ainv s K (mkA (buf a) (nbytes a) (esize a) (nalloc a) (wrap (nelts a + n))) (l ++ repeat None (N.to_nat n)).
Proof.
  intros Hf (H1 & H2 & H3 & H4 & H5 & H6 & H7) Hn.
  destruct (fits1 s K (nalloc a) Hf H6) as [Hb _].
  unfold ainv. cbn [esize nelts nbytes nalloc buf]. rewrite wrap_small by lia.
  assert (len (l ++ repeat None (N.to_nat n)) = len l + n) by (unfold len; rewrite app_length, repeat_length; lia).
  repeat split; auto; try lia.
  intros i v Hi. rewrite nth_error_app_cases in Hi. destruct (N.to_nat i <? length l)%nat; auto.
  apply nth_repeat_none in Hi. subst; exact I.
Qed.

Lemma in_buf_ok s K a l i : ainv s K a l -> i < nelts a -> in_buf a i = true.
Proof.
  intros (H1 & H2 & H3 & H4 & H5 & H6 & H7) Hi. unfold in_buf. rewrite H1, H3.
  apply N.leb_le. nia.
Qed.

Lemma read_from_ok s K a l : ainv s K a l -> forall k i, (i + k = length l)%nat ->
  exists m, read_from k a (N.of_nat i) = Ok m /\ Forall2 agree (skipn i l) m.
Proof.
  intros HI. induction k as [|k IH]; intros i E; cbn [read_from].
  - exists []. rewrite skipn_all2 by lia. split; auto.
  - unfold arr_read. rewrite (in_buf_ok s K a l) by (auto; destruct HI as (_ & H2 & _); unfold len in H2; lia).
    cbn [rbind]. replace (N.of_nat i + 1) with (N.of_nat (S i)) by lia.
    destruct (IH (S i)) as (m & Em & Hm); [lia|]. rewrite Em. cbn [rbind].
    eexists. split; [reflexivity|].
    destruct (nth_error l i) as [v|] eqn:Ev; [|apply nth_error_None in Ev; lia].
    replace (skipn i l) with (v :: skipn (S i) l).
    + constructor; auto. destruct HI as (_ & _ & _ & _ & _ & _ & H7). apply H7. rewrite Nat2N.id. exact Ev.
    + clear - Ev. revert i Ev. induction l as [|x l IH]; intros [|i] Ev; try discriminate; cbn in *; [congruence|].
      apply IH; auto.
Qed.

Lemma a_step_ok s K ok a l o : fits s K -> ainv s K a l -> len l + requested [o] <= K ->
  exists a' out l', a_step ok a o = Ok (a', out) /\ a_spec l o out l' /\ ainv s K a' l' /\ len l' <= len l + requested [o].
Proof.
  intros Hf HI Hn. pose proof HI as (H1 & H2 & H3 & H4 & H5 & H6 & H7).
  destruct o as [|n|i v|i| | |]; cbn [a_step requested] in *.
  - unfold arr_push.
    assert (exists r, (if nalloc a <=? nelts a then arr_alloc ok a 1 else Ok (a, true)) = Ok r /\
       match r with (a', true) => ainv s K a' l /\ len l + 1 <= nalloc a' | (a', false) => a' = a end) as ([a' b] & E & H).
    { destruct (N.leb_spec (nalloc a) (nelts a)); [apply (alloc_ok s K); auto; lia|].
      eexists; split; [reflexivity|]. cbn beta iota. split; auto. lia. }
    rewrite E. cbn [rbind]. destruct b.
    + destruct H as [HI' Hna]. eexists _, _, _. split; [reflexivity|]. cbn [fst snd].
      destruct HI' as (G1 & G2 & G) eqn:EG. rewrite G2. split; [apply as_push|].
      split; [rewrite <- G2; exact (grown_inv s K a' l 1 Hf HI' Hna)|]. unfold len. rewrite app_length. cbn. lia.
    + subst a'. eexists _, _, _. split; [reflexivity|]. cbn [fst snd]. split; [apply as_push_fail|]. split; auto. lia.
  - unfold arr_pushn. destruct (fits1 s K (len l + n) Hf) as [Hw _]; [lia|]. rewrite (wrap_small (nelts a + n)) by lia.
    assert (exists r, (if nalloc a <? nelts a + n then arr_alloc ok a n else Ok (a, true)) = Ok r /\
       match r with (a', true) => ainv s K a' l /\ len l + n <= nalloc a' | (a', false) => a' = a end) as ([a' b] & E & H).
    { destruct (N.ltb_spec (nalloc a) (nelts a + n)); [apply (alloc_ok s K); auto; lia|].
      eexists; split; [reflexivity|]. cbn beta iota. split; auto. lia. }
    rewrite E. cbn [rbind]. destruct b.
    + destruct H as [HI' Hna]. eexists _, _, _. split; [reflexivity|]. cbn [fst snd].
      destruct HI' as (G1 & G2 & G) eqn:EG. rewrite G2. split; [apply as_pushn|].
      split; [rewrite <- G2; exact (grown_inv s K a' l n Hf HI' Hna)|]. unfold len. rewrite app_length, repeat_length. lia.
    + subst a'. eexists _, _, _. split; [reflexivity|]. cbn [fst snd]. split; [apply as_pushn_fail|]. split; auto. lia.
  - destruct (N.ltb_spec i (nelts a)).
    + unfold arr_write. rewrite (in_buf_ok s K a l) by auto. cbn [rbind].
      eexists _, _, _. split; [reflexivity|]. split; [apply as_write; lia|]. split; [|unfold len; rewrite upd_length; lia].
      unfold ainv. cbn [esize nelts nbytes nalloc buf]. unfold len in *. rewrite upd_length. repeat split; auto.
      intros j w Hj. rewrite nth_error_upd in Hj. destruct (N.eqb_spec j i) as [->|Hne].
      * rewrite Nat.eqb_refl in Hj. destruct (N.to_nat i <? length l)%nat; [|discriminate]. injection Hj as <-. reflexivity.
      * destruct (Nat.eqb_spec (N.to_nat i) (N.to_nat j)); [lia|]. auto.
    + eexists _, _, _. split; [reflexivity|]. split; [apply as_write_out; lia|]. split; auto. lia.
  - destruct (N.ltb_spec i (nelts a)).
    + unfold arr_read. rewrite (in_buf_ok s K a l) by auto. cbn [rbind].
      destruct (nth_error l (N.to_nat i)) as [v|] eqn:Ev; [|apply nth_error_None in Ev; unfold len in H2; lia].
      eexists _, _, _. split; [reflexivity|]. split; [eapply as_read; eauto|]. split; auto. lia.
    + eexists _, _, _. split; [reflexivity|]. split; [apply as_read_out; lia|]. split; auto. lia.
  - unfold arr_pop. destruct (N.eqb_spec (nelts a) 0) as [E|E].
    + cbn [rbind fst snd]. eexists _, _, _. split; [reflexivity|].
      assert (l = []) by (destruct l; auto; unfold len in H2; cbn in H2; lia).
      split; [apply as_pop_empty; auto|]. split; auto. lia.
    + unfold arr_read. rewrite (in_buf_ok s K a l) by (auto; lia). cbn [rbind fst snd].
      destruct (@exists_last _ l) as (t & v & El). { intros ->. apply E. rewrite H2. reflexivity. }
      assert (Hl : len l = len t + 1) by (rewrite El; unfold len; rewrite app_length; cbn; lia).
      assert (Hlt : N.to_nat (nelts a - 1) = length t) by (unfold len in *; lia).
      eexists _, _, _. split; [reflexivity|]. split; [apply (as_pop l t v); auto|].
      * apply H7. rewrite Hlt, El, nth_error_app2, Nat.sub_diag by auto. reflexivity.
      * split; [|lia]. unfold ainv. cbn [esize nelts nbytes nalloc buf]. repeat split; auto; try lia.
        intros j w Hj. apply H7. rewrite El, nth_error_app1; auto. apply nth_error_Some. congruence.
  - eexists _, _, _. split; [reflexivity|]. rewrite H2. split; [apply as_count|]. split; auto. lia.
  - unfold arr_reset. destruct (read_from_ok s K a l HI (N.to_nat (nelts a)) 0%nat) as (m & E & Hm).
    { unfold len in H2. lia. }
    change (N.of_nat 0) with 0 in E. rewrite E. cbn [rbind fst snd].
    eexists _, _, _. split; [reflexivity|]. split; [apply as_reset; exact Hm|]. split; [|unfold len; cbn; lia].
    unfold ainv. cbn [esize nelts nbytes nalloc buf]. repeat split; auto; try lia.
    intros i v Hi. destruct (N.to_nat i); discriminate.
Qed.

Lemma requested_cons (o : aop V) ops : requested (o :: ops) = requested [o] + requested ops.
Proof. destruct o; cbn [requested]; lia. Qed.

Lemma a_run_ok s K ok : fits s K -> forall ops k a l, ainv s K a l -> len l + requested ops <= K ->
  exists a' outs, a_run ok k a ops = Ok (a', outs) /\ a_spec_run l ops outs.
Proof.
  intros Hf. induction ops as [|o ops IH]; intros k a l HI Hn; cbn [a_run].
  - exists a, []. split; auto. constructor.
  - rewrite requested_cons in Hn.
    destruct (a_step_ok s K (ok k) a l o Hf HI) as (a1 & out & l1 & E & HS & HI1 & Hl1); [lia|].
    rewrite E. cbn [rbind fst snd]. destruct (IH (S k) a1 l1 HI1) as (a2 & outs & E2 & HS2); [lia|].
    rewrite E2. cbn [rbind fst snd]. eexists _, _. split; [reflexivity|]. econstructor; eauto.
Qed.

Lemma array_ok (ok : nat -> N -> bool) (size n0 : N) (ops : list (aop V)) :
  0 < n0 -> 2 * (n0 + requested ops) * (size + 1) < 2^64 ->
  exists a0 made, arr_init (ok 0%nat) size n0 = Ok (a0, made) /\
    (made = true -> exists a outs, a_run ok 1 a0 ops = Ok (a, outs) /\ a_spec_run [] ops outs).
Proof.
  intros H0 Hf. set (K := n0 + requested ops) in *.
  assert (Hf' : fits size K) by exact Hf.
  unfold arr_init, arr_alloc. cbn [nelts nalloc esize nbytes buf].
  destruct (fits1 size K n0 Hf') as [A B]; [unfold K; lia|].
  rewrite N.add_0_r, wrap_small by auto. change 66%nat with (S 65). cbn [grow].
  destruct (N.ltb_spec n0 n0); [lia|]. cbn [rbind]. rewrite (wrap_small (n0 * size)) by auto.
  destruct (ok 0%nat (n0 * size)); cbn [negb].
  - change (wrap (0 * size)) with 0.
    destruct (N.leb_spec 0 0); [|lia]. destruct (N.leb_spec 0 (n0 * size)); [|lia]. cbn [andb].
    eexists _, _. split; [reflexivity|]. intros _. apply (a_run_ok size K ok Hf').
    + unfold ainv. cbn [esize nelts nbytes nalloc buf]. repeat split; try lia; try (unfold K; lia).
      intros i v Hi. destruct (N.to_nat i); discriminate.
    + change (len []) with 0. unfold K. lia.
  - eexists _, _. split; [reflexivity|]. discriminate.
Qed.
End P.

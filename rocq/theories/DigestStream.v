(** * Message digests: feeding in pieces *)

From Coq Require Import List Arith NArith Bool Lia ZifyBool ZifyNat ZifyN.
From Verif Require Import Base DigestModel DigestSpec.
Import ListNotations.

(** ** Cutting *)

Lemma cut_fuel n : 1 <= n -> forall fuel l, length l <= fuel -> cut fuel n l = cut (length l) n l.
Proof.
  intros Hn fuel l. remember (length l) as k eqn:E. revert l fuel E.
  induction k as [k IH] using lt_wf_ind. intros l fuel E F. destruct l as [|x l].
  - subst k. destruct fuel; reflexivity.
  - cbn [length] in E. destruct fuel as [|fuel]; [lia|]. destruct k as [|k]; [lia|]. cbn [cut]. f_equal.
    pose proof (skipn_length n (x :: l)) as L. cbn [length] in L.
    rewrite (IH (length (skipn n (x :: l))) ltac:(lia) (skipn n (x :: l)) fuel eq_refl) by lia.
    symmetry. apply (IH (length (skipn n (x :: l)))); [lia|reflexivity|lia].
Qed.

Lemma pieces_nil n : pieces n [] = [].
Proof. reflexivity. Qed.

Lemma pieces_step n l : 1 <= n -> l <> [] -> pieces n l = firstn n l :: pieces n (skipn n l).
Proof.
  intros Hn Hl. unfold pieces. destruct l as [|x l]; [congruence|]. cbn [length cut]. f_equal.
  apply cut_fuel; [exact Hn|]. rewrite skipn_length. cbn [length]. lia.
Qed.

Lemma pieces_app n q : 1 <= n -> forall a b, length a = n * q -> pieces n (a ++ b) = pieces n a ++ pieces n b.
Proof.
  intros Hn. induction q as [|q IH]; intros a b L.
  - destruct a; [reflexivity|cbn in L; lia].
  - assert (Ha : a <> []) by (intros ->; cbn in L; nia).
    rewrite (pieces_step n a) by auto. rewrite (pieces_step n (a ++ b)); [|exact Hn|destruct a; [congruence|discriminate]].
    assert (n <= length a) by nia.
    rewrite firstn_app, skipn_app. replace (n - length a) with 0 by lia. cbn [firstn skipn].
    rewrite app_nil_r. cbn [app]. f_equal. apply IH. rewrite skipn_length. nia.
Qed.

Lemma pieces_one n l : 1 <= n -> length l = n -> pieces n l = [l].
Proof.
  intros Hn L. rewrite pieces_step; [|exact Hn|intros ->; cbn in L; lia].
  rewrite firstn_all2, skipn_all2 by lia. reflexivity.
Qed.

Lemma pieces_length n q : 1 <= n -> forall l, length l = n * q -> length (pieces n l) = q.
Proof.
  intros Hn. induction q as [|q IH]; intros l L; [destruct l; [reflexivity|cbn in L; lia]|].
  rewrite pieces_step; [|exact Hn|intros ->; cbn in L; nia]. cbn [length]. f_equal. apply IH. rewrite skipn_length. nia.
Qed.

Lemma pieces_blocks n q : 1 <= n -> forall l, length l = n * q -> bytes l ->
  Forall (fun p => length p = n /\ bytes p) (pieces n l).
Proof.
  intros Hn. induction q as [|q IH]; intros l L B; [destruct l; [constructor|cbn in L; lia]|].
  rewrite pieces_step; [|exact Hn|intros ->; cbn in L; nia]. constructor.
  - split; [rewrite firstn_length; nia|]. unfold bytes in *. rewrite Forall_forall in *. intros x Hx. apply B.
    rewrite <- (firstn_skipn n l). apply in_or_app. now left.
  - apply IH; [rewrite skipn_length; nia|]. unfold bytes in *. rewrite Forall_forall in *. intros x Hx. apply B.
    rewrite <- (firstn_skipn n l). apply in_or_app. now right.
Qed.

Lemma pieces_nth n q : 1 <= n -> forall l i, length l = n * q -> i < q ->
  nth i (pieces n l) [] = firstn n (skipn (n * i) l).
Proof.
  intros Hn. induction q as [|q IH]; intros l i L Hi; [lia|].
  rewrite pieces_step; [|exact Hn|intros ->; cbn in L; nia]. destruct i as [|i].
  - replace (n * 0) with 0 by lia. reflexivity.
  - cbn [nth]. rewrite IH; [|rewrite skipn_length; nia|lia]. f_equal.
    replace (n * S i) with (n * i + n) by lia. clear. generalize (n * i). intros j.
    rewrite Nat.add_comm. revert l. induction n as [|n IHn]; intros l; [reflexivity|].
    destruct l as [|x l]; [cbn [skipn]; now rewrite !skipn_nil|]. cbn [skipn Nat.add]. apply IHn.
Qed.

(** ** Writing into a buffer *)

Lemma memcpy_ok buf pos bs : pos + length bs <= length buf ->
  memcpy buf pos bs = Some (firstn pos buf ++ bs ++ skipn (pos + length bs) buf).
Proof. intros H. unfold memcpy. apply Nat.leb_le in H. now rewrite H. Qed.

Lemma store_ok (buf : list N) pos v : pos < length buf -> store buf pos v = Some (upd buf pos v).
Proof. intros H. unfold store. apply Nat.ltb_lt in H. now rewrite H. Qed.

Lemma upd_at (a : list N) x b v n : length a = n -> upd (a ++ x :: b) n v = a ++ v :: b.
Proof. intros <-. induction a; cbn [length app upd]; [reflexivity|]. now rewrite IHa. Qed.

Lemma firstn_exact (a b : list N) n : length a = n -> firstn n (a ++ b) = a.
Proof. intros <-. rewrite firstn_app, Nat.sub_diag, firstn_all. cbn [firstn]. apply app_nil_r. Qed.

Ltac len := repeat (first [rewrite app_length | rewrite repeat_length | progress cbn [length app]]); try lia.

(** ** Feeding *)

Section Stream.

Variable H : Type.
Variable block : H -> list N -> H.
Variable length_bytes : N -> list N.
Hypothesis length_bytes_8 : forall n, length (length_bytes n) = 8.

Notation ctx := (ctx H).

Variable h0 : H.

Definition absorb (m : list N) : H := fold_left block (pieces 64 m) h0.

Definition fed (c : ctx) (m : list N) : Prop :=
  exists done q, length done = 64 * q /\ c_h H c = absorb done /\ length (c_buf H c) = 64 /\ c_pos H c <= 64 /\
    m = done ++ firstn (c_pos H c) (c_buf H c).

Lemma absorb_block done q b : length done = 64 * q -> length b = 64 -> block (absorb done) b = absorb (done ++ b).
Proof.
  intros L Lb. unfold absorb. rewrite (pieces_app 64 q) by (auto; lia). rewrite (pieces_one 64 b) by (auto; lia).
  rewrite fold_left_app. reflexivity.
Qed.

Lemma loop_ok : forall fuel c input m, length input + c_pos H c <= fuel -> fed c m ->
  exists c' pre rest, calc_loop H block fuel c input = Some (c', rest) /\ input = pre ++ rest /\
    fed c' (m ++ pre) /\ c_length H c' = c_length H c /\ length rest + c_pos H c' <= 64.
Proof.
  induction fuel as [|fuel IH]; intros c input m F (done & q & L & Hh & Hb & Hp & Hm).
  - exists c, [], input. cbn [calc_loop]. destruct (64 <? length input + c_pos H c) eqn:E; [lia|].
    split; [reflexivity|]. split; [reflexivity|]. rewrite app_nil_r. split; [exists done, q; auto|]. split; [reflexivity|lia].
  - cbn [calc_loop]. destruct (Nat.ltb_spec 64 (length input + c_pos H c)) as [E|E].
    2:{ exists c, [], input. split; [reflexivity|]. split; [reflexivity|]. rewrite app_nil_r. split; [exists done, q; auto|]. split; [reflexivity|lia]. }
    assert (LF : length (firstn (64 - c_pos H c) input) = 64 - c_pos H c) by (rewrite firstn_length; lia).
    rewrite memcpy_ok by lia. cbn [obind]. rewrite LF.
    replace (skipn (c_pos H c + (64 - c_pos H c)) (c_buf H c)) with (@nil N).
    2:{ symmetry. apply skipn_all2. lia. }
    rewrite app_nil_r. set (buf := firstn (c_pos H c) (c_buf H c) ++ firstn (64 - c_pos H c) input).
    assert (LB : length buf = 64). { unfold buf. rewrite app_length, LF, firstn_length. lia. }
    destruct (IH (mkC H (block (c_h H c) buf) (c_length H c) 0 buf) (skipn (64 - c_pos H c) input)
                (m ++ firstn (64 - c_pos H c) input)) as (c' & pre & rest & E1 & E2 & E3 & E4 & E5).
    + cbn [c_pos]. rewrite skipn_length. lia.
    + exists (done ++ buf), (S q). cbn [c_h c_buf c_pos]. split; [rewrite app_length; lia|]. split.
      * rewrite Hh. apply (absorb_block done q); auto.
      * split; [exact LB|]. split; [lia|]. cbn [firstn]. rewrite app_nil_r, Hm. unfold buf. now rewrite app_assoc.
    + exists c', (firstn (64 - c_pos H c) input ++ pre), rest. split; [exact E1|]. split.
      * rewrite <- app_assoc, <- E2. symmetry. apply firstn_skipn.
      * rewrite app_assoc. auto.
Qed.

Definition counted (c : ctx) (m : list N) : Prop := c_length H c = (N.of_nat (length m) mod two64)%N.

Lemma calc_ok c m input : fed c m -> counted c m ->
  exists c', calc H block length_bytes c input false = Some c' /\ fed c' (m ++ input) /\ counted c' (m ++ input) /\
    calc H block length_bytes c input true = calc_last H block length_bytes c'.
Proof.
  intros F CN. unfold calc. set (c1 := mkC H (c_h H c) _ (c_pos H c) (c_buf H c)).
  assert (F1 : fed c1 m) by exact F.
  destruct (loop_ok (length input + c_pos H c1) c1 input m ltac:(lia) F1) as (c2 & pre & rest & E1 & E2 & F2 & E4 & E5).
  rewrite E1. cbn [obind].
  assert (CL : c_length H c2 = (N.of_nat (length (m ++ input)) mod two64)%N).
  { rewrite E4. cbn [c1 c_length]. rewrite CN. rewrite app_length, Nat2N.inj_add.
    rewrite N.add_mod_idemp_l by discriminate. reflexivity. }
  destruct F2 as (done & q & L & Hh & Hb & Hp & Hm).
  destruct (Nat.ltb_spec 0 (length rest)) as [R|R].
  - rewrite memcpy_ok by lia. cbn [obind]. eexists. split; [reflexivity|]. split; [|split; [|reflexivity]].
    + exists done, q. cbn [c_h c_buf c_pos]. split; [exact L|]. split; [exact Hh|]. split; [|split; [lia|]].
      * rewrite !app_length, firstn_length, skipn_length. lia.
      * rewrite E2. rewrite app_assoc, Hm, <- app_assoc. f_equal.
        rewrite app_assoc, firstn_app. rewrite (@firstn_all2 N _ (firstn (c_pos H c2) (c_buf H c2) ++ rest)) by (rewrite app_length, firstn_length; lia).
        rewrite app_length, firstn_length.
        replace (c_pos H c2 + length rest - (Nat.min (c_pos H c2) (length (c_buf H c2)) + length rest)) with 0 by lia.
        cbn [firstn]. now rewrite app_nil_r.
    + exact CL.
  - destruct rest; [|cbn in R; lia]. cbn [obind]. exists c2. split; [reflexivity|]. split; [|split; [exact CL|reflexivity]].
    rewrite E2, app_nil_r. exists done, q. auto.
Qed.

Lemma last_ok c m : fed c m -> counted c m ->
  exists c', calc_last H block length_bytes c = Some c' /\
    c_h H c' = absorb (pad (length_bytes ((bits m) mod two64)%N) m).
Proof.
  intros (done & q & L & Hh & Hb & Hp & Hm) CN. unfold calc_last.
  set (p := firstn (c_pos H c) (c_buf H c)) in *.
  assert (LP : length p = c_pos H c) by (unfold p; rewrite firstn_length; lia).
  assert (LM : length m = 64 * q + c_pos H c) by (rewrite Hm, app_length; lia).
  assert (LEN : (N.shiftl (N.of_nat (length m) mod two64) 3 mod two64 = bits m mod two64)%N).
  { rewrite N.shiftl_mul_pow2. unfold bits. rewrite N.mul_mod_idemp_l by discriminate. f_equal. change (2 ^ 3)%N with 8%N. lia. }
  destruct (Nat.ltb_spec (c_pos H c) 56) as [C1|C1].
  - unfold memset. rewrite memcpy_ok by (rewrite repeat_length; lia). cbn [obind]. fold p. rewrite repeat_length.
    replace (c_pos H c + (56 - c_pos H c)) with 56 by lia.
    set (tl := skipn 56 (c_buf H c)). assert (LT : length tl = 8) by (unfold tl; rewrite skipn_length; lia).
    replace (56 - c_pos H c) with (S (55 - c_pos H c)) by lia. cbn [repeat].
    rewrite store_ok by len. cbn [obind].
    cbn [app]. rewrite (upd_at _ _ _ _ _ LP). cbn [c_length c_buf c_h c_pos]. rewrite CN, LEN.
    set (lb := length_bytes _). assert (LL : length lb = 8) by apply length_bytes_8.
    rewrite memcpy_ok by len. cbn [obind].
    eexists. split; [reflexivity|]. cbn [c_h]. rewrite Hh.
    set (z := repeat 0%N (55 - c_pos H c)). assert (LZ : length z = 55 - c_pos H c) by apply repeat_length.
    replace (firstn 56 (p ++ 128%N :: z ++ tl)) with (p ++ 128%N :: z).
    2:{ change (p ++ 128%N :: z ++ tl) with (p ++ (128%N :: z) ++ tl). rewrite app_assoc, firstn_app.
        rewrite firstn_all2 by len.
        replace (56 - length (p ++ 128%N :: z)) with 0 by len. cbn [firstn]. now rewrite app_nil_r. }
    replace (skipn (56 + length lb) (p ++ 128%N :: z ++ tl)) with (@nil N).
    2:{ symmetry. apply skipn_all2. rewrite app_length. cbn [length]. rewrite app_length. lia. }
    rewrite app_nil_r. rewrite (absorb_block done q); auto.
    2:{ rewrite !app_length. cbn [length]. lia. }
    f_equal. unfold pad. rewrite Hm. rewrite <- !app_assoc. f_equal. f_equal. cbn [app]. f_equal. f_equal. unfold z. f_equal.
    rewrite <- Hm, LM. replace (64 * q + c_pos H c) with (c_pos H c + q * 64) by lia. rewrite Nat.mod_add, (Nat.mod_small (c_pos H c)) by lia.
    symmetry. replace (119 - c_pos H c) with (55 - c_pos H c + 1 * 64) by lia. rewrite Nat.mod_add by lia. apply Nat.mod_small. lia.
  - destruct (Nat.ltb_spec (c_pos H c) 64) as [C2|C2].
    + unfold memset at 1. rewrite memcpy_ok by (rewrite repeat_length; lia). cbn [obind]. fold p. rewrite repeat_length.
      replace (c_pos H c + (64 - c_pos H c)) with 64 by lia. rewrite (skipn_all2 (n := 64) (c_buf H c)) by lia.
      replace (64 - c_pos H c) with (S (63 - c_pos H c)) by lia. cbn [repeat]. rewrite app_nil_r.
      rewrite store_ok by len. cbn [obind].
      rewrite (upd_at _ _ _ _ _ LP).
      set (b1 := p ++ 128%N :: repeat 0%N (63 - c_pos H c)).
      assert (LB1 : length b1 = 64). { unfold b1. rewrite app_length. cbn [length]. rewrite repeat_length. lia. }
      unfold memset. rewrite memcpy_ok by (rewrite repeat_length; lia). cbn [obind]. cbn [firstn app].
      cbn [c_length c_buf c_h c_pos]. rewrite CN, LEN.
      set (lb := length_bytes _). assert (LL : length lb = 8) by apply length_bytes_8.
      rewrite repeat_length. cbn [Nat.add].
      set (tl := skipn 56 b1). assert (LT : length tl = 8) by (unfold tl; rewrite skipn_length; lia).
      rewrite memcpy_ok by len. cbn [obind].
      eexists. split; [reflexivity|]. cbn [c_h]. rewrite Hh.
      replace (firstn 56 (repeat 0%N 56 ++ tl)) with (repeat 0%N 56).
      2:{ symmetry. apply firstn_exact. apply repeat_length. }
      rewrite (skipn_all2 (repeat 0%N 56 ++ tl)) by len. rewrite app_nil_r.
      rewrite (absorb_block done q b1); auto. rewrite (absorb_block (done ++ b1) (S q)).
      2:{ rewrite app_length. lia. }
      2:{ rewrite app_length, repeat_length. lia. }
      f_equal. unfold pad, b1. rewrite Hm. rewrite <- !app_assoc. f_equal. f_equal. cbn [app]. f_equal.
      rewrite app_assoc. rewrite <- repeat_app. f_equal. f_equal.
      rewrite <- Hm, LM. replace (64 * q + c_pos H c) with (c_pos H c + q * 64) by lia. rewrite Nat.mod_add, (Nat.mod_small (c_pos H c)) by lia.
      symmetry. rewrite Nat.mod_small by lia. lia.
    + assert (P64 : c_pos H c = 64) by lia.
      assert (PB : p = c_buf H c) by (unfold p; apply firstn_all2; lia).
      unfold memset. rewrite memcpy_ok by (rewrite repeat_length; lia). cbn [obind]. cbn [firstn app].
      rewrite repeat_length. cbn [Nat.add].
      set (tl := skipn 56 (c_buf H c)). assert (LT : length tl = 8) by (unfold tl; rewrite skipn_length; lia).
      rewrite store_ok by len. cbn [obind].
      replace (upd (repeat 0%N 56 ++ tl) 0 128%N) with ((128%N :: repeat 0%N 55) ++ tl) by reflexivity.
      cbn [c_length c_buf c_h c_pos]. rewrite CN, LEN.
      set (lb := length_bytes _). assert (LL : length lb = 8) by apply length_bytes_8.
      set (z := 128%N :: repeat 0%N 55). assert (LZ : length z = 56) by (unfold z; cbn [length]; now rewrite repeat_length).
      rewrite memcpy_ok by (rewrite app_length; lia). cbn [obind].
      eexists. split; [reflexivity|]. cbn [c_h]. rewrite Hh.
      replace (firstn 56 (z ++ tl)) with z.
      2:{ symmetry. apply firstn_exact. exact LZ. }
      rewrite (skipn_all2 (z ++ tl)) by (rewrite app_length; lia). rewrite app_nil_r.
      rewrite (absorb_block done q (c_buf H c)); auto. rewrite (absorb_block (done ++ c_buf H c) (S q)).
      2:{ rewrite app_length. lia. }
      2:{ rewrite app_length. lia. }
      f_equal. unfold pad. rewrite Hm, PB. f_equal. unfold z. cbn [app]. f_equal. f_equal. f_equal.
      rewrite <- PB, <- Hm, LM, P64. replace (64 * q + 64) with (0 + S q * 64) by lia. rewrite Nat.mod_add by lia. reflexivity.
Qed.

Lemma init_fed buf : length buf = 64 -> fed (mkC H h0 0 0 buf) [] /\ counted (mkC H h0 0 0 buf) [].
Proof. intros L. split; [exists [], 0; cbn; auto using Nat.le_0_l|reflexivity]. Qed.

Lemma calc_all_ok last : forall ps c m, fed c m -> counted c m ->
  exists c', calc_all H block length_bytes c ps last = Some c' /\
    c_h H c' = absorb (pad (length_bytes ((bits (m ++ concat ps ++ last)) mod two64)%N) (m ++ concat ps ++ last)).
Proof.
  induction ps as [|p ps IH]; intros c m F CN; cbn [calc_all concat app].
  - destruct (calc_ok c m last F CN) as (c' & _ & F' & CN' & E). rewrite E. now apply last_ok.
  - destruct (calc_ok c m p F CN) as (c' & E & F' & CN' & _). rewrite E. cbn [obind].
    destruct (IH c' (m ++ p) F' CN') as (c'' & E1 & E2). exists c''. split; [exact E1|]. rewrite E2. now rewrite <- !app_assoc.
Qed.

(** With a function of blocks that agrees on blocks of bytes. *)
Lemma absorb_ext (block' : H -> list N -> H) (P : H -> Prop) : P h0 ->
  (forall h b, P h -> length b = 64 -> bytes b -> block h b = block' h b /\ P (block h b)) ->
  forall m q, length m = 64 * q -> bytes m -> absorb m = fold_left block' (pieces 64 m) h0 /\ P (absorb m).
Proof.
  intros P0 E m q L B. unfold absorb. pose proof (pieces_blocks 64 q ltac:(lia) m L B) as F.
  revert P0. generalize h0. induction F as [|b l [Lb Bb] F IH]; intros h Ph; [auto|]. cbn [fold_left].
  destruct (E h b Ph Lb Bb) as [E1 E2]. rewrite <- E1. apply IH. exact E2.
Qed.

End Stream.

(** ** The padded message *)

Lemma pad_length len m : length len = 8 -> exists q, length (pad len m) = 64 * q.
Proof.
  intros L. unfold pad. rewrite !app_length. cbn [length]. rewrite app_length, repeat_length, L.
  pose proof (Nat.div_mod (length m) 64 ltac:(lia)) as D. pose proof (Nat.mod_upper_bound (length m) 64 ltac:(lia)) as U.
  set (r := length m mod 64) in *. set (k := length m / 64) in *. clearbody r k.
  destruct (Nat.le_gt_cases r 55) as [C|C].
  - exists (k + 1). replace ((119 - r) mod 64) with (55 - r); [lia|].
    replace (119 - r) with (55 - r + 1 * 64) by lia. rewrite Nat.mod_add by lia. symmetry. apply Nat.mod_small. lia.
  - exists (k + 2). rewrite Nat.mod_small by lia. lia.
Qed.

Lemma pad_bytes len m : bytes len -> bytes m -> bytes (pad len m).
Proof.
  intros B1 B2. unfold pad, bytes in *. apply Forall_app. split; [exact B2|]. constructor; [unfold is_byte; lia|].
  apply Forall_app. split; [|exact B1]. apply Forall_forall. intros x Hx. apply repeat_spec in Hx. subst. unfold is_byte. lia.
Qed.

(** Proofs about WebSocket frames. *)
Require Import List Arith NArith Lia Bool.
Require Import ZifyBool ZifyNat ZifyN.
Import ListNotations.
Require Import Verif.Base Verif.Sweep Verif.EndianSpec Verif.EndianProofs Verif.WsModel Verif.WsSpec.
Local Open Scope N_scope.

Lemma byte_at_div m s : byte_at m s = (m / 2 ^ s) mod 256.
Proof. unfold byte_at. rewrite land255, N.shiftr_div_pow2. reflexivity. Qed.

Lemma be2 n : be_bytes 2 n = [byte_at n 8; byte_at n 0].
Proof. cbn [be_bytes]. rewrite !byte_at_div. reflexivity. Qed.
Lemma be4 n : be_bytes 4 n = tmpkey n.
Proof. cbn [be_bytes]. unfold tmpkey. rewrite !byte_at_div. reflexivity. Qed.
Lemma be8 n : be_bytes 8 n = [byte_at n 56; byte_at n 48; byte_at n 40; byte_at n 32; byte_at n 24; byte_at n 16; byte_at n 8; byte_at n 0].
Proof. cbn [be_bytes]. rewrite !byte_at_div. reflexivity. Qed.

Lemma xor_from_map k : forall l i, xor_from k i l =
  map (fun ib => N.lxor (snd ib) (nth (Nat.modulo (fst ib) 4) k 0)) (combine (seq i (length l)) l).
Proof.
  induction l as [|b l IH]; intros i; cbn [xor_from length seq combine map fst snd]; [reflexivity|].
  now rewrite IH.
Qed.
Lemma xor_from_length k : forall l i, length (xor_from k i l) = length l.
Proof. induction l; intros i; cbn [xor_from length]; auto. Qed.
Lemma xor_from_app k : forall a b i, xor_from k i (a ++ b) = xor_from k i a ++ xor_from k (i + length a)%nat b.
Proof.
  induction a as [|x a IH]; intros b i; cbn [app xor_from length]; [now rewrite Nat.add_0_r|].
  rewrite IH. f_equal. f_equal. f_equal. lia.
Qed.
Lemma xor_from_twice k : forall l i, xor_from k i (xor_from k i l) = l.
Proof.
  induction l as [|b l IH]; intros i; cbn [xor_from]; [reflexivity|]. rewrite IH. f_equal.
  rewrite N.lxor_assoc, N.lxor_nilpotent. apply N.lxor_0_r.
Qed.
Lemma lxor_byte a b : a < 256 -> b < 256 -> N.lxor a b < 256.
Proof.
  intros A B. destruct (N.eq_dec (N.lxor a b) 0) as [->|Z]; [lia|].
  change 256 with (2 ^ 8). apply N.log2_lt_pow2; [lia|].
  eapply N.le_lt_trans; [apply N.log2_lxor|]. apply N.max_lub_lt.
  - destruct (N.eq_dec a 0) as [->|]; [reflexivity|]. apply N.log2_lt_pow2; [lia|exact A].
  - destruct (N.eq_dec b 0) as [->|]; [reflexivity|]. apply N.log2_lt_pow2; [lia|exact B].
Qed.
Lemma nth_byte k i : bytes k -> nth i k 0 < 256.
Proof.
  intros B. destruct (Nat.lt_ge_cases i (length k)).
  - unfold bytes in B. rewrite Forall_forall in B. apply B, nth_In; auto.
  - rewrite nth_overflow by auto. reflexivity.
Qed.
Lemma xor_from_bytes k : bytes k -> forall l i, bytes l -> bytes (xor_from k i l).
Proof.
  intros K l. induction l as [|b l IH]; intros i B; cbn [xor_from]; [constructor|].
  inversion B; subst. constructor; [|apply IH; auto]. apply lxor_byte; auto. apply nth_byte; auto.
Qed.

Lemma masked_length k l : length (masked k l) = length l.
Proof.
  destruct k; cbn [masked]; [|reflexivity]. rewrite <- xor_from_map. apply xor_from_length.
Qed.

(** * Reading *)

Lemma skip_repeat k bufs : skip_empty (repeat [] k ++ bufs) = skip_empty bufs.
Proof. induction k; cbn [repeat app skip_empty]; auto. Qed.
Lemma skip_idem : forall bufs, skip_empty (skip_empty bufs) = skip_empty bufs.
Proof. induction bufs as [|[|b l] t IH]; cbn [skip_empty]; auto. Qed.
Lemma skip_concat : forall bufs, concat (skip_empty bufs) = concat bufs.
Proof. induction bufs as [|[|b l] t IH]; cbn [skip_empty concat app]; auto. Qed.

Lemma next_laid b fs bufs rest : laid ([b] :: fs) bufs rest ->
  exists bufs', next_byte bufs = Some (b, bufs') /\ laid fs bufs' rest.
Proof.
  intros H. inversion H; subst. unfold next_byte. rewrite skip_repeat. cbn [app skip_empty]. eauto.
Qed.
Lemma take_laid f fs bufs rest : f <> [] -> laid (f :: fs) bufs rest ->
  exists bufs', take (length f) bufs = RGot f bufs' /\ laid fs bufs' rest.
Proof.
  intros N H. inversion H; subst; [congruence|]. unfold take. rewrite skip_repeat.
  destruct f as [|x f]; [congruence|]. change (skip_empty (((x :: f) ++ b) :: t)) with (((x :: f) ++ b) :: t).
  cbv beta iota. rewrite app_length. destruct (Nat.ltb_spec (length (x :: f) + length b) (length (x :: f))); [lia|].
  rewrite firstn_app, firstn_all, Nat.sub_diag, firstn_O, app_nil_r.
  rewrite skipn_app, skipn_all, Nat.sub_diag, skipn_O. cbn [app]. eauto.
Qed.
Lemma take0_laid f fs bufs rest : laid (f :: fs) bufs rest ->
  exists bufs', take0 (length f) bufs = RGot f bufs' /\ laid fs bufs' rest.
Proof.
  intros H. destruct f as [|x f].
  - inversion H; subst; [|congruence]. exists bufs. auto.
  - apply take_laid in H; [exact H|discriminate].
Qed.
Lemma laid_end bufs rest : laid [] bufs rest -> bufs = rest.
Proof. inversion 1; auto. Qed.

Lemma laid_skip fs bufs rest : laid ([] :: fs) bufs rest -> laid fs bufs rest.
Proof. inversion 1; subst; [auto|congruence]. Qed.

(** * The header bytes *)

Lemma header1 (a b c d : bool) op : op < 16 ->
  let x := bit a 128 + bit b 64 + bit c 32 + bit d 16 + op in
  N.testbit x 7 = a /\ N.testbit x 6 = b /\ N.testbit x 5 = c /\ N.testbit x 4 = d /\ N.land x 15 = op /\
  N.lor (N.lor (N.lor (N.lor (b2n a 0x80) (b2n b 0x40)) (b2n c 0x20)) (b2n d 0x10)) (N.land op 15) = x.
Proof.
  intros H.
  assert (S : forallb (fun op => forallb (fun a => forallb (fun b => forallb (fun c => forallb (fun d =>
    let x := bit a 128 + bit b 64 + bit c 32 + bit d 16 + op in
    Bool.eqb (N.testbit x 7) a && Bool.eqb (N.testbit x 6) b && Bool.eqb (N.testbit x 5) c && Bool.eqb (N.testbit x 4) d &&
    (N.land x 15 =? op) && (N.lor (N.lor (N.lor (N.lor (b2n a 0x80) (b2n b 0x40)) (b2n c 0x20)) (b2n d 0x10)) (N.land op 15) =? x))
    [true; false]) [true; false]) [true; false]) [true; false]) (nrange 16) = true) by (vm_compute; reflexivity).
  pose proof (sweep1 16 _ S op H) as T. cbv beta in T.
  rewrite forallb_forall in T. specialize (T a ltac:(destruct a; cbn; auto)).
  rewrite forallb_forall in T. specialize (T b ltac:(destruct b; cbn; auto)).
  rewrite forallb_forall in T. specialize (T c ltac:(destruct c; cbn; auto)).
  rewrite forallb_forall in T. specialize (T d ltac:(destruct d; cbn; auto)).
  cbv zeta in T |- *. rewrite !andb_true_iff, !Bool.eqb_true_iff, !N.eqb_eq in T. tauto.
Qed.

Lemma header2 (m : bool) l : l < 128 ->
  let x := bit m 128 + l in N.testbit x 7 = m /\ N.land x 127 = l /\ N.lor (b2n m 0x80) (N.land l 127) = x.
Proof.
  intros H.
  assert (S : forallb (fun l => forallb (fun m => let x := bit m 128 + l in
    Bool.eqb (N.testbit x 7) m && (N.land x 127 =? l) && (N.lor (b2n m 0x80) (N.land l 127) =? x)) [true; false]) (nrange 128) = true) by (vm_compute; reflexivity).
  pose proof (sweep1 128 _ S l H) as T. cbv beta in T.
  rewrite forallb_forall in T. specialize (T m ltac:(destruct m; cbn; auto)).
  cbv zeta in T |- *. rewrite !andb_true_iff, !Bool.eqb_true_iff, !N.eqb_eq in T. tauto.
Qed.

(** * Words *)

Lemma word2 a b : a < 256 -> b < 256 -> N.lor (N.shiftl a 8) b = be_value [a; b].
Proof.
  intros A B. rewrite N.shiftl_mul_pow2. rewrite (lor_add _ _ 8).
  - cbn [be_value length]. rewrite N.pow_0_r. change (256 ^ N.of_nat 1) with 256. change (2 ^ 8) with 256. lia.
  - exact B.
  - apply N.mod_mul. discriminate.
Qed.
Lemma word4 a b c d : a < 256 -> b < 256 -> c < 256 -> d < 256 ->
  N.lor (N.lor (N.lor (N.shiftl a 24) (N.shiftl b 16)) (N.shiftl c 8)) d = be_value [a; b; c; d].
Proof.
  intros A B C D. rewrite !N.shiftl_mul_pow2.
  change (2 ^ 24) with 16777216. change (2 ^ 16) with 65536. change (2 ^ 8) with 256.
  rewrite (lor_add (a * 16777216) _ 24) by (change (2 ^ 24) with 16777216; lia).
  rewrite (lor_add (a * 16777216 + b * 65536) _ 16) by (change (2 ^ 16) with 65536; lia).
  rewrite (lor_add _ _ 8) by (change (2 ^ 8) with 256; lia).
  cbn [be_value length]. change (256 ^ N.of_nat 3) with 16777216. change (256 ^ N.of_nat 2) with 65536.
  change (256 ^ N.of_nat 1) with 256. change (256 ^ N.of_nat 0) with 1. lia.
Qed.
Lemma tmpkey_word k : length k = 4%nat -> bytes k -> tmpkey (be_value k) = k.
Proof.
  intros L B. destruct k as [|a [|b [|c [|d [|]]]]]; try discriminate.
  inversion_clear B as [|? ? A B']. inversion_clear B' as [|? ? B'' C']. inversion_clear C' as [|? ? C D']. inversion_clear D' as [|? ? D _].
  cbn [be_value length]. change (256 ^ N.of_nat 3) with 16777216. change (256 ^ N.of_nat 2) with 65536.
  change (256 ^ N.of_nat 1) with 256. change (256 ^ N.of_nat 0) with 1.
  unfold tmpkey. rewrite !byte_at_div.
  change (2 ^ 24) with 16777216. change (2 ^ 16) with 65536. change (2 ^ 8) with 256. change (2 ^ 0) with 1.
  unfold is_byte in *. repeat (f_equal; try lia).
Qed.
Lemma bytes_word2 a b : a < 256 -> b < 256 -> byte_at (be_value [a; b]) 8 = a /\ byte_at (be_value [a; b]) 0 = b.
Proof.
  intros A B. cbn [be_value length]. change (256 ^ N.of_nat 1) with 256. change (256 ^ N.of_nat 0) with 1.
  rewrite !byte_at_div. change (2 ^ 8) with 256. change (2 ^ 0) with 1. lia.
Qed.
Lemma word2_zero a b : be_value [a; b] = 0 -> a = 0 /\ b = 0.
Proof.
  cbn [be_value length]. change (256 ^ N.of_nat 1) with 256. change (256 ^ N.of_nat 0) with 1. lia.
Qed.
Lemma be_bytes_word k n : n < 256 ^ N.of_nat k -> be_value (be_bytes k n) = n.
Proof. intros H. rewrite be_value_bytes. apply N.mod_small. exact H. Qed.

(** * Parsing *)

Definition keyed (f : frame) : bool := match f_key f with None => false | Some _ => true end.
Definition keyval (f : frame) : N := match f_key f with None => 0 | Some k => be_value k end.

Lemma bytes_app a b : bytes a -> bytes b -> bytes (a ++ b).
Proof. intros A B. apply Forall_app. auto. Qed.
Lemma masked_xor k l : masked (Some k) l = xor_from k 0 l.
Proof. cbn [masked]. symmetry. apply xor_from_map. Qed.
Lemma masked_bytes f : wf_frame f -> bytes (masked (f_key f) (f_payload f)).
Proof.
  intros (_ & P & K). destruct (f_key f) as [k|]; [|exact P]. rewrite masked_xor.
  apply xor_from_bytes; tauto.
Qed.

Definition b1_of (f : frame) : N := bit (f_fin f) 128 + bit (f_rsv1 f) 64 + bit (f_rsv2 f) 32 + bit (f_rsv3 f) 16 + f_op f.

Lemma parse_payload_ok w f b2 fs bufs rest : wf_frame f -> status_ok w f ->
  N.of_nat (length (f_payload f)) < 2 ^ 16 ->
  N.testbit b2 7 = keyed f -> fs = [] ->
  laid (firstn (status_len f) (masked (f_key f) (f_payload f)) :: skipn (status_len f) (masked (f_key f) (f_payload f)) :: fs) bufs rest ->
  parse_payload w (b1_of f) b2 (keyval f) (N.of_nat (length (f_payload f))) bufs = POk (received w f) (skip_empty rest).
Proof.
  intros W S L B -> H.
  destruct (header1 (f_fin f) (f_rsv1 f) (f_rsv2 f) (f_rsv3 f) (f_op f) (proj1 W)) as (H1 & H2 & H3 & H4 & H5 & _).
  fold (b1_of f) in H1, H2, H3, H4, H5.
  pose proof (masked_bytes f W) as MB. pose proof (masked_length (f_key f) (f_payload f)) as ML.
  destruct W as (WO & WP & WK).
  unfold parse_payload. rewrite H5. unfold status_len in *. change CLOSE with 8.
  destruct (f_payload f) as [|x p] eqn:EP.
  { (* no payload *)
    cbn [length] in *. cbn [N.of_nat N.eqb].
    rewrite andb_false_r in H. cbn [firstn skipn] in H.
    destruct (masked (f_key f) []) as [|] eqn:EM; [|discriminate ML].
    inversion H; subst; [|congruence]. inversion H6; subst; [|congruence]. apply laid_end in H7. subst bufs.
    unfold parse_end. rewrite B, H1, H2, H3, H4, H5. unfold received, status_len. rewrite EP.
    cbn [length]. rewrite andb_false_r. cbn [skipn length N.of_nat firstn be_value].
    unfold status_ok in S. rewrite EP in S. unfold keyed, keyval in *.
    destruct (f_key f) as [k|] eqn:EK; cbn [andb].
    - change CLOSE with 8. destruct (N.eqb_spec (f_op f) 8) as [O|O]; cbn [andb option_map]; [|reflexivity].
      rewrite (S O). reflexivity.
    - reflexivity. }
  assert (LN : N.of_nat (length (x :: p)) =? 0 = false) by (cbn [length]; lia). rewrite LN. clear LN.
  set (m := masked (f_key f) (x :: p)) in *.
  destruct ((f_op f =? 8) && Nat.leb 2 (length (x :: p))) eqn:C.
  - (* closing frame with a status *)
    apply andb_true_iff in C. destruct C as [C1 C2]. rewrite C1.
    assert (C3 : 1 <? N.of_nat (length (x :: p)) = true) by (apply Nat.leb_le in C2; lia). rewrite C3. cbn [andb].
    apply Nat.leb_le in C2. destruct m as [|a [|b m']] eqn:EM; try (cbn [length] in *; lia).
    cbn [firstn skipn] in H. apply take_laid in H; [|discriminate]. destruct H as (bufs1 & T1 & H).
    cbn [length] in T1. rewrite T1. cbn [nth].
    inversion_clear MB as [|? ? MA MB']. inversion_clear MB' as [|? ? MB MM].
    unfold is_byte in *. rewrite word2 by auto.
    apply take0_laid in H. destruct H as (bufs2 & T2 & H). apply laid_end in H. subst bufs2.
    replace (N.to_nat (N.of_nat (length (x :: p)) - 2)) with (length m') by (cbn [length] in *; lia).
    rewrite T2.
    replace (N.of_nat (length (x :: p)) - 2) with (N.of_nat (length m')) by (cbn [length] in *; lia).
    unfold parse_end. rewrite B, H1, H2, H3, H4, H5. cbn [status set_status].
    unfold received, status_len. rewrite EP, C1. cbn [andb]. rewrite (proj2 (Nat.leb_le 2 _) C2).
    change CLOSE with 8. rewrite C1, andb_true_r. unfold keyed, keyval in *.
    replace (length (skipn 2 (x :: p))) with (length m') by (rewrite skipn_length; cbn [length] in *; lia).
    unfold m in EM. destruct (f_key f) as [k|] eqn:EK; cbn [andb].
    + unfold status_ok in S. rewrite EK, EP in S. unfold status_len in S. rewrite EP, C1 in S. cbn [andb] in S.
      rewrite (proj2 (Nat.leb_le 2 _) C2) in S. specialize (S (proj1 (N.eqb_eq _ _) C1)).
      rewrite masked_xor in EM. destruct p as [|y p]; [cbn [length] in C2; lia|].
      destruct WK as [KL KB]. assert (TK := tmpkey_word k KL KB).
      destruct k as [|k0 [|k1 k']]; try discriminate KL. cbn [xor_from] in EM.
      cbn [Nat.modulo Nat.divmod fst snd nth Nat.sub] in EM. injection EM as EA EB EC.
      assert (Z : be_value [a; b] =? 0 = false).
      { apply N.eqb_neq. intros Z. apply word2_zero in Z. destruct Z as [Za Zb]. subst a b. apply S. cbn [firstn].
        apply N.lxor_eq in Za. apply N.lxor_eq in Zb. congruence. }
      rewrite Z. cbn [negb]. rewrite TK. destruct (bytes_word2 a b MA MB) as [BA BB]. rewrite BA, BB.
      cbn [option_map nth firstn skipn]. f_equal. f_equal.
      * f_equal. rewrite <- EC. apply (xor_from_twice (k0 :: k1 :: k') p 2).
      * subst a b. rewrite !N.lxor_assoc, !N.lxor_nilpotent, !N.lxor_0_r. apply word2; inversion_clear WP as [|? ? Wx Wp]; auto.
        inversion_clear Wp; auto.
    + cbn [masked] in EM. injection EM as EA EB. subst a p. cbn [firstn skipn]. reflexivity.
  - (* no status *)
    assert (C' : (f_op f =? 8) && (1 <? N.of_nat (length (x :: p))) = false).
    { destruct (f_op f =? 8); [|reflexivity]. cbn [andb] in *. apply Nat.leb_gt in C. lia. }
    rewrite C'. cbn [firstn skipn] in H. inversion H; subst; [|congruence].
    apply take0_laid in H6. destruct H6 as (bufs2 & T2 & H6). apply laid_end in H6. subst bufs2.
    rewrite Nnat.Nat2N.id. rewrite ML in T2. rewrite T2.
    unfold parse_end. rewrite B, H1, H2, H3, H4, H5. cbn [status set_status]. rewrite N.eqb_refl, andb_false_r.
    unfold received, status_len. rewrite EP, C. cbn [firstn skipn be_value]. unfold keyed, keyval, m in *.
    destruct (f_key f) as [k|]; [|reflexivity]. cbn [option_map]. rewrite masked_xor.
    destruct WK as [KL KB]. rewrite tmpkey_word, xor_from_twice by auto. reflexivity.
Qed.

Lemma parse_laid w f l7 ext bufs rest : wf_frame f -> status_ok w f ->
  N.of_nat (length (f_payload f)) < 2 ^ 16 -> l7 <> 127 ->
  len_field (N.of_nat (length (f_payload f))) l7 ext -> laid (fields f (l7, ext)) bufs rest ->
  parse w bufs = POk (received w f) (skip_empty rest).
Proof.
  intros W S L NL LF H. unfold fields in H. fold (b1_of f) in H. cbn [fst snd] in H. fold (keyed f) in H.
  assert (L7 : l7 < 128) by (clear - LF; destruct LF; lia).
  destruct (header2 (keyed f) l7 L7) as (K1 & K2 & _).
  unfold parse. apply next_laid in H. destruct H as (bufs1 & -> & H).
  apply next_laid in H. destruct H as (bufs2 & -> & H). rewrite K2.
  destruct (N.eqb_spec l7 127) as [|_]; [contradiction|].
  assert (G : forall bufs, laid [match f_key f with None => [] | Some k => k end;
      firstn (status_len f) (masked (f_key f) (f_payload f)); skipn (status_len f) (masked (f_key f) (f_payload f))] bufs rest ->
    parse_key w (b1_of f) (bit (keyed f) 128 + l7) (N.of_nat (length (f_payload f))) bufs = POk (received w f) (skip_empty rest)).
  { clear H bufs2. intros bufs2 H. unfold parse_key. rewrite K1. unfold keyed at 1.
    pose proof (parse_payload_ok w f (bit (keyed f) 128 + l7) [] ) as PP.
    destruct (f_key f) as [k|] eqn:EK.
    - destruct W as (W1 & W2 & W3). rewrite EK in W3. destruct W3 as [KL KB].
      assert (KN : k <> []) by (intros ->; discriminate). pose proof (take_laid _ _ _ _ KN H) as (bufs3 & T & H').
      rewrite KL in T. rewrite T.
      destruct k as [|a [|b [|c [|d [|]]]]]; try discriminate. cbn [nth].
      inversion_clear KB as [|? ? A B']. inversion_clear B' as [|? ? B'' C']. inversion_clear C' as [|? ? C D']. inversion_clear D' as [|? ? D _].
      rewrite word4 by auto. specialize (PP bufs3 rest). unfold keyval in PP. rewrite EK in PP. apply PP; auto.
      split; [|split]; auto. rewrite EK. split; [auto|]. repeat constructor; auto.
    - inversion H; subst; [|congruence]. specialize (PP bufs2 rest). unfold keyval in PP. rewrite EK in PP. apply PP; auto. }
  inversion LF; subst l7 ext.
  - destruct (N.eqb_spec (N.of_nat (length (f_payload f))) 126) as [E|_]; [lia|].
    inversion H; subst; [|congruence]. apply G. auto.
  - rewrite N.eqb_refl. apply take_laid in H; [|discriminate]. destruct H as (bufs3 & T & H).
    rewrite be_bytes_length in T. rewrite T. rewrite be2. cbn [nth]. rewrite word2.
    + rewrite <- be2, be_bytes_word; [apply G; exact H|]. exact L.
    + rewrite byte_at_div. apply N.mod_lt. discriminate.
    + rewrite byte_at_div. apply N.mod_lt. discriminate.
  - congruence.
Qed.

Lemma laid_one tl more : forall fs, laid fs ((concat fs ++ tl) :: more) (tl :: more).
Proof.
  induction fs as [|f fs IH]; cbn [concat]; [apply laid_nil|].
  destruct f as [|x f]; [apply laid_none; exact IH|].
  rewrite <- app_assoc. apply (laid_field (x :: f) fs 0); [discriminate|exact IH].
Qed.

Lemma short_len_ok n : n < 2 ^ 64 -> len_field n (fst (short_len n)) (snd (short_len n)).
Proof.
  intros H. unfold short_len. destruct (N.ltb_spec n 126); [apply len_short; auto|].
  destruct (N.ltb_spec n (2 ^ 16)); [apply len_16; auto|apply len_64; auto].
Qed.

(** * Truncated frames *)

Lemma take_none n bufs : skip_empty bufs = [] -> take n bufs = RNone.
Proof. unfold take. now intros ->. Qed.
Lemma next_none bufs : skip_empty bufs = [] -> next_byte bufs = None.
Proof. unfold next_byte. now intros ->. Qed.

Lemma set_status_self w : set_status w (status w) = w.
Proof. destruct w; reflexivity. Qed.

Lemma parse_truncated w f l7 ext bufs rest done g todo : wf_frame f ->
  N.of_nat (length (f_payload f)) < 2 ^ 16 -> l7 <> 127 ->
  len_field (N.of_nat (length (f_payload f))) l7 ext ->
  fields f (l7, ext) = done ++ g :: todo -> g <> [] ->
  laid done bufs rest -> skip_empty rest = [] ->
  exists s, parse w bufs = PNotYet (set_status w s).
Proof.
  intros W L NL LF E G H R. unfold fields in E. fold (b1_of f) in E. cbn [fst snd] in E. fold (keyed f) in E.
  assert (L7 : l7 < 128) by (clear - LF; destruct LF; lia).
  destruct (header2 (keyed f) l7 L7) as (K1 & K2 & _).
  destruct (header1 (f_fin f) (f_rsv1 f) (f_rsv2 f) (f_rsv3 f) (f_op f) (proj1 W)) as (_ & _ & _ & _ & H5 & _).
  fold (b1_of f) in H5.
  assert (SS : exists s, PNotYet w = PNotYet (set_status w s)) by (exists (status w); now rewrite set_status_self).
  unfold parse.
  destruct done as [|d done].
  { apply laid_end in H. subst bufs. rewrite next_none by auto. exact SS. }
  injection E as <- E. apply next_laid in H. destruct H as (bufs1 & -> & H).
  destruct done as [|d done].
  { apply laid_end in H. subst bufs1. rewrite next_none by auto. exact SS. }
  injection E as <- E. apply next_laid in H. destruct H as (bufs2 & -> & H). rewrite K2.
  destruct done as [|d done].
  { apply laid_end in H. subst bufs2. injection E as E0 E1. subst g. rewrite !take_none by auto.
    inversion LF; subst l7 ext; [congruence|exact SS|exact SS]. }
  injection E as <- E.
  pose proof (masked_length (f_key f) (f_payload f)) as ML.
  (* the payload, after the key *)
  assert (P : forall bufs k dd, laid dd bufs rest ->
    [firstn (status_len f) (masked (f_key f) (f_payload f)); skipn (status_len f) (masked (f_key f) (f_payload f))] = dd ++ g :: todo ->
    exists s, parse_payload w (b1_of f) (bit (keyed f) 128 + l7) k (N.of_nat (length (f_payload f))) bufs = PNotYet (set_status w s)).
  { clear - L R G SS H5 ML. intros bufs k dd H E. unfold parse_payload. rewrite H5. change CLOSE with 8.
    set (m := masked (f_key f) (f_payload f)) in *.
    assert (NZ : f_payload f <> []).
    { intros Z. rewrite Z in ML. destruct m; [|discriminate]. rewrite firstn_nil, skipn_nil in E.
      destruct dd as [|d [|d' dd]]; cbn [app] in E; [congruence|congruence|destruct dd; discriminate]. }
    destruct (N.eqb_spec (N.of_nat (length (f_payload f))) 0) as [Z|_].
    { destruct (f_payload f); [congruence|cbn [length] in Z; lia]. }
    assert (S8 : (f_op f =? 8) && (1 <? N.of_nat (length (f_payload f))) = (f_op f =? 8) && Nat.leb 2 (length (f_payload f))).
    { f_equal. destruct (Nat.leb_spec 2 (length (f_payload f))); lia. }
    rewrite S8. unfold status_len in *. destruct ((f_op f =? 8) && Nat.leb 2 (length (f_payload f))) eqn:C.
    - apply andb_true_iff in C. destruct C as [_ C]. apply Nat.leb_le in C.
      destruct m as [|a [|b m]]; try (cbn [length] in ML; lia). cbn [firstn skipn] in E.
      destruct dd as [|d dd].
      { apply laid_end in H. subst bufs. rewrite take_none by auto. exact SS. }
      injection E as <- E. apply take_laid in H; [|discriminate]. destruct H as (bufs1 & T & H). cbn [length] in T.
      rewrite T. destruct dd as [|d dd]; [|destruct dd; discriminate]. injection E as E0 _. subst g.
      apply laid_end in H. subst bufs1.
      destruct (N.to_nat (N.of_nat (length (f_payload f)) - 2)) eqn:Z.
      + destruct m; [congruence|]. cbn [length] in ML. lia.
      + unfold take0. rewrite take_none by auto. eauto.
    - cbn [firstn skipn] in E. destruct dd as [|d dd]; [injection E as E0 _; congruence|]. injection E as <- E.
      apply laid_skip in H.
      destruct dd as [|d dd]; [|destruct dd; discriminate]. apply laid_end in H. subst bufs.
      destruct (N.to_nat (N.of_nat (length (f_payload f)))) eqn:Z; [destruct (f_payload f); [congruence|cbn [length] in Z; lia]|].
      unfold take0. rewrite take_none by auto. eauto. }
  assert (Q : forall bufs, laid done bufs rest ->
    exists s, parse_key w (b1_of f) (bit (keyed f) 128 + l7) (N.of_nat (length (f_payload f))) bufs = PNotYet (set_status w s)).
  { clear H bufs2. intros bufs2 H. unfold parse_key. rewrite K1. unfold keyed at 1.
    destruct (f_key f) as [k|] eqn:EK.
    - destruct done as [|d done].
      { apply laid_end in H. subst bufs2. rewrite take_none by auto. exact SS. }
      injection E as <- E. destruct W as (_ & _ & W3). rewrite EK in W3. destruct W3 as [KL KB].
      assert (KN : k <> []) by (intros ->; discriminate). pose proof (take_laid _ _ _ _ KN H) as (bufs3 & T & H').
      rewrite KL in T. rewrite T. apply (P _ _ done); auto.
    - destruct done as [|d done]; [injection E as E0 _; congruence|]. injection E as <- E.
      apply laid_skip in H. apply (P _ _ done); auto. }
  inversion LF; subst l7 ext.
  - destruct (N.eqb_spec (N.of_nat (length (f_payload f))) 127) as [E1|_]; [lia|].
    destruct (N.eqb_spec (N.of_nat (length (f_payload f))) 126) as [E1|_]; [lia|].
    apply laid_skip in H. apply Q. auto.
  - change (126 =? 127) with false. rewrite N.eqb_refl. apply take_laid in H; [|discriminate]. destruct H as (bufs3 & T & H).
    rewrite be_bytes_length in T. rewrite T. rewrite be2. cbn [nth]. rewrite word2.
    + rewrite <- be2, be_bytes_word; [apply Q; exact H|]. exact L.
    + rewrite byte_at_div. apply N.mod_lt. discriminate.
    + rewrite byte_at_div. apply N.mod_lt. discriminate.
  - congruence.
Qed.

(** * Generating *)

Lemma frame_bytes_eq f len : concat (fields f len) =
  b1_of f :: (bit (keyed f) 128 + fst len) :: snd len ++ match f_key f with None => [] | Some k => k end ++ masked (f_key f) (f_payload f).
Proof.
  unfold fields. fold (b1_of f). fold (keyed f). cbn [concat app]. rewrite app_nil_r, firstn_skipn. reflexivity.
Qed.

Lemma short_cases n :
  short_len n = (if 125 <? n then if N.shiftr n 16 =? 0 then (126, be_bytes 2 n) else (127, be_bytes 8 n) else (n, [])).
Proof.
  unfold short_len. rewrite N.shiftr_div_pow2. change (2 ^ 16) with 65536.
  destruct (N.ltb_spec n 126), (N.ltb_spec 125 n); try lia; [reflexivity|].
  destruct (N.ltb_spec n 65536), (N.eqb_spec (n / 65536) 0); try lia; reflexivity.
Qed.

Theorem generate_ok w : wf_ws w ->
  let n := N.of_nat (length (f_payload (frame_of w))) in
  n < 2 ^ 63 -> (mask w = true -> n < 2 ^ 32) -> (control (opcode w) = true -> n <= 125) ->
  generate w = GOk (frame_bytes (frame_of w)).
Proof.
  intros (C & B & O & S & K) n L M CT.
  set (mem := match content w with None => [] | Some l => l end) in *.
  set (st := if opcode w =? CLOSE then [byte_at (status w) 8; byte_at (status w) 0] else []).
  assert (P : f_payload (frame_of w) = st ++ mem).
  { unfold frame_of. cbn [f_payload]. fold mem. unfold st. change CLOSE with 8. rewrite be2.
    destruct (opcode w =? 8); reflexivity. }
  assert (EN : (if opcode w =? CLOSE then (clen w + 2) mod 2 ^ 64 else clen w) = n).
  { unfold n in *. rewrite P, app_length in *. unfold st in *. destruct (opcode w =? CLOSE); cbn [length] in *.
    - rewrite N.mod_small; clear - L C; lia.
    - clear - C; lia. }
  unfold generate. fold mem. fold st. rewrite EN.
  assert (E0 : match content w with None => negb (clen w =? 0) | Some _ => false end = false).
  { unfold mem in C. destruct (content w); [reflexivity|]. cbn [length] in C. rewrite C. reflexivity. }
  rewrite E0.
  assert (E1 : ((opcode w =? CLOSE) || (opcode w =? PING) || (opcode w =? PONG)) && (125 <? n) = false).
  { change ((opcode w =? CLOSE) || (opcode w =? PING) || (opcode w =? PONG)) with (control (opcode w)).
    destruct (control (opcode w)); [|reflexivity]. specialize (CT eq_refl). clear - CT. lia. }
  rewrite E1. rewrite C at 1. rewrite N.ltb_irrefl.
  assert (E2 : mask w && (2 ^ 32 <=? n) = false).
  { destruct (mask w); [|reflexivity]. specialize (M eq_refl). cbn [andb]. apply N.leb_gt. exact M. }
  rewrite E2. cbv zeta. rewrite C, Nnat.Nat2N.id, firstn_all.
  pose proof (header1 (fin w) (rsv1 w) (rsv2 w) (rsv3 w) (opcode w) O) as (_ & _ & _ & _ & _ & H1). rewrite H1.
  set (pl := if 125 <? n then if N.shiftr n 16 =? 0 then 126 else 127 else n).
  assert (PL : pl = fst (short_len n)).
  { rewrite short_cases. unfold pl. destruct (125 <? n), (N.shiftr n 16 =? 0); reflexivity. }
  assert (PB : pl < 128).
  { unfold pl. destruct (N.ltb_spec 125 n); [|clear - H; lia]. destruct (N.shiftr n 16 =? 0); reflexivity. }
  destruct (header2 (mask w) pl PB) as (_ & _ & H2). rewrite H2.
  assert (EX : (if pl =? 126 then [byte_at n 8; byte_at n 0]
      else if pl =? 127 then [byte_at n 56; byte_at n 48; byte_at n 40; byte_at n 32; byte_at n 24; byte_at n 16; byte_at n 8; byte_at n 0]
      else []) = snd (short_len n)).
  { rewrite short_cases, be2, be8. unfold pl. destruct (N.ltb_spec 125 n).
    - destruct (N.shiftr n 16 =? 0); reflexivity.
    - destruct (N.eqb_spec n 126) as [Q|_]; [clear - H Q; lia|]. destruct (N.eqb_spec n 127) as [Q|_]; [clear - H Q; lia|]. reflexivity. }
  rewrite EX.
  assert (BODY : (if mask w then tmpkey (key w) ++ xor_from (tmpkey (key w)) 0 st ++ xor_from (tmpkey (key w)) (length st) mem else st ++ mem) =
    match f_key (frame_of w) with None => [] | Some k => k end ++ masked (f_key (frame_of w)) (f_payload (frame_of w))).
  { rewrite P. unfold frame_of. cbn [f_key]. destruct (mask w); [|reflexivity].
    rewrite masked_xor, be4, xor_from_app. reflexivity. }
  rewrite BODY. unfold frame_bytes. fold n. rewrite frame_bytes_eq.
  replace (b1_of (frame_of w)) with (bit (fin w) 128 + bit (rsv1 w) 64 + bit (rsv2 w) 32 + bit (rsv3 w) 16 + opcode w) by reflexivity.
  replace (keyed (frame_of w)) with (mask w) by (unfold keyed, frame_of; cbn [f_key]; destruct (mask w); reflexivity).
  rewrite <- PL.
  match goal with |- (if ?a =? ?b then _ else _) = _ => assert (Q : a = b); [|rewrite Q, N.eqb_refl; reflexivity] end.
  cbn [length]. rewrite !app_length, masked_length. fold n.
  assert (X1 : length (snd (short_len n)) = N.to_nat (if 125 <? n then if N.shiftr n 16 =? 0 then 2 else 8 else 0)).
  { rewrite short_cases. destruct (125 <? n), (N.shiftr n 16 =? 0); reflexivity. }
  assert (X2 : length match f_key (frame_of w) with None => [] | Some k => k end = N.to_nat (b2n (mask w) 4)).
  { unfold frame_of. cbn [f_key]. destruct (mask w); [rewrite be_bytes_length|]; reflexivity. }
  rewrite X1, X2. clear - n. destruct (125 <? n), (N.shiftr n 16 =? 0), (mask w); unfold b2n; lia.
Qed.

(** * Only frames are parsed *)

Definition rest_of (p : pout) : list (list N) := match p with POk _ b => b | _ => [] end.
Lemma parse_end_rest w b1 b2 k c n bufs w' bufs' : parse_end w b1 b2 k c n bufs = POk w' bufs' -> bufs' = skip_empty bufs.
Proof. intros H. symmetry. exact (f_equal rest_of H). Qed.

Lemma skip_split : forall bufs, exists k, bufs = repeat [] k ++ skip_empty bufs.
Proof.
  induction bufs as [|[|b l] t [k IH]]; cbn [skip_empty]; [exists 0%nat; reflexivity| |exists 0%nat; reflexivity].
  exists (S k). cbn [repeat app]. now f_equal.
Qed.
Lemma next_inv bufs b bufs' : next_byte bufs = Some (b, bufs') -> exists k l t, bufs = repeat [] k ++ ([b] ++ l) :: t /\ bufs' = l :: t.
Proof.
  unfold next_byte. intros H. destruct (skip_split bufs) as [k E].
  destruct (skip_empty bufs) as [|[|x l] t]; try discriminate. injection H as -> <-. exists k, l, t. split; [exact E|reflexivity].
Qed.
Lemma take_inv n bufs l bufs' : take n bufs = RGot l bufs' -> length l = n /\ exists k b t, bufs = repeat [] k ++ (l ++ b) :: t /\ bufs' = b :: t.
Proof.
  unfold take. intros H. destruct (skip_split bufs) as [k E].
  destruct (skip_empty bufs) as [|c t]; try discriminate. destruct (Nat.ltb_spec (length c) n); [discriminate|].
  injection H as <- <-. split; [rewrite firstn_length; lia|]. exists k, (skipn n c), t.
  rewrite firstn_skipn. auto.
Qed.
Definition allb (bufs : list (list N)) : Prop := Forall bytes bufs.
Lemma laid_allb f fs k b t : allb (repeat [] k ++ (f ++ b) :: t) -> bytes f /\ allb (b :: t) /\ (forall rest, f <> [] -> laid fs (b :: t) rest -> laid (f :: fs) (repeat [] k ++ (f ++ b) :: t) rest).
Proof.
  unfold allb. intros H. apply Forall_app in H. destruct H as [_ H]. inversion H; subst.
  apply Forall_app in H2. destruct H2. repeat split; auto. intros. now constructor.
Qed.
Lemma next_inv2 bufs b bufs' : allb bufs -> next_byte bufs = Some (b, bufs') ->
  b < 256 /\ allb bufs' /\ forall fs rest, laid fs bufs' rest -> laid ([b] :: fs) bufs rest.
Proof.
  intros A H. apply next_inv in H. destruct H as (k & l & t & -> & ->).
  destruct (laid_allb [b] [] k l t A) as (B & A' & _). split; [inversion B; auto|]. split; [auto|].
  intros. apply laid_field; [discriminate|auto].
Qed.
Lemma take_inv2 n bufs l bufs' : allb bufs -> take (S n) bufs = RGot l bufs' ->
  length l = S n /\ bytes l /\ allb bufs' /\ forall fs rest, laid fs bufs' rest -> laid (l :: fs) bufs rest.
Proof.
  intros A H. apply take_inv in H. destruct H as (L & k & b & t & -> & ->). split; [auto|].
  destruct (laid_allb l [] k b t A) as (B & A' & _). split; [auto|]. split; [auto|].
  intros. apply laid_field; [intros ->; discriminate|auto].
Qed.
Lemma take0_inv2 n bufs l bufs' : allb bufs -> take0 n bufs = RGot l bufs' ->
  length l = n /\ bytes l /\ allb bufs' /\ forall fs rest, laid fs bufs' rest -> laid (l :: fs) bufs rest.
Proof.
  intros A H. destruct n as [|n]; [|apply take_inv2; auto]. cbn [take0] in H. injection H as <- <-.
  split; [auto|]. split; [constructor|]. split; [auto|]. intros. now apply laid_none.
Qed.

Lemma masked_twice k l : masked k (masked k l) = l.
Proof.
  destruct k as [k|]; [|reflexivity]. rewrite !masked_xor. apply xor_from_twice.
Qed.

Lemma byte_split1 b : b < 256 -> exists a0 a1 a2 a3 op, op < 16 /\ b = bit a0 128 + bit a1 64 + bit a2 32 + bit a3 16 + op.
Proof.
  intros H. exists (128 <=? b), (64 <=? b mod 128), (32 <=? b mod 64), (16 <=? b mod 32), (b mod 16).
  split; [apply N.mod_lt; discriminate|]. unfold bit.
  destruct (N.leb_spec 128 b), (N.leb_spec 64 (b mod 128)), (N.leb_spec 32 (b mod 64)), (N.leb_spec 16 (b mod 32)); lia.
Qed.
Lemma byte_split2 b : b < 256 -> exists m l, l < 128 /\ b = bit m 128 + l.
Proof.
  intros H. exists (128 <=? b), (b mod 128). split; [apply N.mod_lt; discriminate|]. unfold bit.
  destruct (N.leb_spec 128 b); lia.
Qed.

Theorem parse_sound w bufs w' bufs' : allb bufs -> parse w bufs = POk w' bufs' ->
  exists f l7 ext rest, wf_frame f /\ N.of_nat (length (f_payload f)) < 2 ^ 16 /\
    len_field (N.of_nat (length (f_payload f))) l7 ext /\ l7 <> 127 /\
    laid (fields f (l7, ext)) bufs rest /\ bufs' = skip_empty rest.
Proof.
  intros A H. unfold parse in H.
  destruct (next_byte bufs) as [[b1 bufs1]|] eqn:N1; [|discriminate].
  apply next_inv2 in N1; auto. destruct N1 as (B1 & A1 & L1).
  destruct (next_byte bufs1) as [[b2 bufs2]|] eqn:N2; [|discriminate].
  apply next_inv2 in N2; auto. destruct N2 as (B2 & A2 & L2).
  destruct (byte_split1 b1 B1) as (a0 & a1 & a2 & a3 & op & OP & E1).
  destruct (byte_split2 b2 B2) as (mk & l7 & L7 & E2).
  destruct (header1 a0 a1 a2 a3 op OP) as (_ & _ & _ & _ & H5 & _). cbv zeta in H5. rewrite <- E1 in H5.
  destruct (header2 mk l7 L7) as (K1 & K2 & _). rewrite <- E2 in K1, K2. cbv zeta in H. rewrite K2 in H.
  assert (PP : forall k n bufs, n < 2 ^ 16 -> allb bufs -> parse_payload w b1 b2 k n bufs = POk w' bufs' ->
    exists wire rest, bytes wire /\ N.of_nat (length wire) = n /\ bufs' = skip_empty rest /\
      let s := if (op =? 8) && Nat.leb 2 (length wire) then 2%nat else 0%nat in
      laid [firstn s wire; skipn s wire] bufs rest).
  { clear - H5 OP. intros k n bufs NB A H. unfold parse_payload in H. rewrite H5 in H. change CLOSE with 8 in H.
    destruct (N.eqb_spec n 0) as [Z|Z].
    - apply parse_end_rest in H. subst bufs'. exists [], bufs. repeat split; auto; [constructor|].
      cbn [length Nat.leb]. rewrite andb_false_r. cbn [firstn skipn]. repeat constructor.
    - destruct ((op =? 8) && (1 <? n)) eqn:C.
      + apply andb_true_iff in C. destruct C as [C1 C2]. destruct (take 2 bufs) as [l bufs3| |] eqn:T; try discriminate.
        apply take_inv2 in T; auto. destruct T as (TL & TB & TA & TQ).
        destruct (take0 _ bufs3) as [l' bufs4| |] eqn:T'; try discriminate. apply take0_inv2 in T'; auto.
        destruct T' as (TL' & TB' & TA' & TQ'). apply parse_end_rest in H. subst bufs'.
        exists (l ++ l'), bufs4. split; [apply bytes_app; auto|]. rewrite app_length. split; [lia|]. split; [auto|].
        rewrite C1. destruct (Nat.leb_spec 2 (length l + length l')); [|lia]. cbn [andb].
        rewrite <- TL, firstn_app, firstn_all, Nat.sub_diag, firstn_O, app_nil_r.
        rewrite skipn_app, skipn_all, Nat.sub_diag, skipn_O. cbn [app]. apply TQ, TQ'. constructor.
      + destruct (take0 _ bufs) as [l' bufs4| |] eqn:T'; try discriminate. apply take0_inv2 in T'; auto.
        destruct T' as (TL' & TB' & TA' & TQ'). apply parse_end_rest in H. subst bufs'.
        exists l', bufs4. split; [auto|]. split; [lia|]. split; [auto|].
        assert (C' : (op =? 8) && Nat.leb 2 (length l') = false).
        { destruct (op =? 8); [|reflexivity]. cbn [andb] in *. apply Nat.leb_gt. lia. }
        rewrite C'. cbn [firstn skipn]. apply laid_none, TQ'. constructor. }
  assert (PK : forall n bufs, n < 2 ^ 16 -> allb bufs -> parse_key w b1 b2 n bufs = POk w' bufs' ->
    exists ky pl rest, mk = (match ky with None => false | Some _ => true end) /\
      bytes pl /\ match ky with None => True | Some k => length k = 4%nat /\ bytes k end /\
      N.of_nat (length pl) = n /\ bufs' = skip_empty rest /\
      let s := if (op =? 8) && Nat.leb 2 (length pl) then 2%nat else 0%nat in
      laid [match ky with None => [] | Some k => k end; firstn s (masked ky pl); skipn s (masked ky pl)] bufs rest).
  { clear H. intros n bufs3 NB A3 H. unfold parse_key in H. rewrite K1 in H. destruct mk.
    - destruct (take 4 bufs3) as [k bufs4| |] eqn:T; try discriminate. apply take_inv2 in T; auto.
      destruct T as (TL & TB & TA & TQ). apply PP in H; auto. destruct H as (wire & rest & WB & WL & WR & WQ).
      exists (Some k), (masked (Some k) wire), rest. split; [auto|].
      split; [rewrite masked_xor; apply xor_from_bytes; auto|]. split; [auto|]. rewrite masked_length.
      split; [auto|]. split; [auto|]. cbv zeta in *. rewrite masked_twice. apply TQ. exact WQ.
    - apply PP in H; auto. destruct H as (wire & rest & WB & WL & WR & WQ).
      exists None, wire, rest. split; [auto|]. split; [auto|]. split; [auto|]. split; [auto|]. split; [auto|].
      cbv zeta in *. apply laid_none. exact WQ. }
  assert (FIN : forall n ext bufs3, n < 2 ^ 16 -> allb bufs3 -> len_field n l7 ext -> l7 <> 127 ->
    (forall fs rest, laid fs bufs3 rest -> laid (ext :: fs) bufs2 rest) ->
    parse_key w b1 b2 n bufs3 = POk w' bufs' ->
    exists f l7 ext rest, wf_frame f /\ N.of_nat (length (f_payload f)) < 2 ^ 16 /\
    len_field (N.of_nat (length (f_payload f))) l7 ext /\ l7 <> 127 /\
    laid (fields f (l7, ext)) bufs rest /\ bufs' = skip_empty rest).
  { clear H. intros n ext bufs3 NB A3 LF NL LE H. apply PK in H; auto.
    destruct H as (ky & pl & rest & KM & PB & KB & PL & PR & PQ).
    exists (F a0 a1 a2 a3 op ky pl), l7, ext, rest. unfold wf_frame. cbn [f_op f_payload f_key].
    split; [auto|]. rewrite PL. split; [auto|]. split; [auto|]. split; [auto|]. split; [|auto].
    unfold fields, status_len. cbn [f_op f_payload f_key f_fin f_rsv1 f_rsv2 f_rsv3 fst snd]. rewrite <- KM, <- E1, <- E2.
    apply L1, L2, LE. exact PQ. }
  destruct (N.eqb_spec l7 127) as [Z|Z].
  { destruct (take 8 bufs2); discriminate. }
  destruct (N.eqb_spec l7 126) as [Z'|Z'].
  - destruct (take 2 bufs2) as [l bufs3| |] eqn:T; try discriminate. apply take_inv2 in T; auto.
    destruct T as (TL & TB & TA & TQ). destruct l as [|x [|y [|]]]; try discriminate. cbn [nth] in H.
    inversion_clear TB as [|? ? BX TB']. inversion_clear TB' as [|? ? BY _]. rewrite word2 in H by auto.
    assert (V : be_value [x; y] < 2 ^ 16).
    { cbn [be_value length]. change (256 ^ N.of_nat 1) with 256. change (256 ^ N.of_nat 0) with 1. change (2 ^ 16) with 65536.
      unfold is_byte in *. clear - BX BY. lia. }
    apply (FIN (be_value [x; y]) [x; y] bufs3); auto. rewrite Z'.
    replace [x; y] with (be_bytes 2 (be_value [x; y])) at 2; [apply len_16; auto|].
    rewrite be2. destruct (bytes_word2 x y BX BY) as [-> ->]. reflexivity.
  - apply (FIN l7 [] bufs2); auto; try (clear - L7; lia).
    + apply len_short. clear - L7 Z Z'. lia.
    + intros. now apply laid_none.
Qed.

(** * Whole frames *)

Lemma laid_whole f len k b t : laid (fields f len) (repeat [] k ++ (concat (fields f len) ++ b) :: t) (b :: t).
Proof.
  pose proof (laid_one b t (tl (fields f len))) as H. unfold fields in *. cbn [tl] in H.
  match goal with |- laid (?x :: ?y) _ _ => change (concat (x :: y)) with (x ++ concat y) end.
  rewrite <- app_assoc. apply laid_field; [discriminate|exact H].
Qed.

Lemma laid_inv x fs bufs rest : x <> [] -> laid (x :: fs) bufs rest ->
  exists k b t, bufs = repeat [] k ++ (x ++ b) :: t /\ laid fs (b :: t) rest.
Proof. intros N H. inversion H; subst; [congruence|]. eauto. Qed.
Lemma frame_bytes_ne f : frame_bytes f <> [].
Proof. unfold frame_bytes. rewrite frame_bytes_eq. discriminate. Qed.

Theorem parse_frame w f bufs rest : wf_frame f -> status_ok w f -> N.of_nat (length (f_payload f)) < 2 ^ 16 ->
  laid [frame_bytes f] bufs rest -> parse w bufs = POk (received w f) (skip_empty rest).
Proof.
  intros W S L H. set (n := N.of_nat (length (f_payload f))) in *.
  assert (LF := short_len_ok n ltac:(clear - L; lia)).
  apply laid_inv in H; [|apply frame_bytes_ne]. destruct H as (k & b & t & -> & H).
  apply laid_end in H. subst rest.
  apply (parse_laid w f (fst (short_len n)) (snd (short_len n))); auto.
  - unfold short_len. destruct (N.ltb_spec n 126); [cbn; lia|]. destruct (N.ltb_spec n (2 ^ 16)); [cbn; lia|lia].
  - rewrite <- surjective_pairing. apply laid_whole.
Qed.

Theorem stream_ok : forall w fs l, receives w fs l -> forall bufs rest, laid (map frame_bytes fs) bufs rest ->
  skip_empty rest = [] -> parse_all (length fs) w (skip_empty bufs) = Some l.
Proof.
  induction 1 as [w|w f fs l W L S R IH]; intros bufs rest H E; cbn [map length] in *.
  - apply laid_end in H. subst bufs. rewrite E. reflexivity.
  - apply laid_inv in H; [|apply frame_bytes_ne]. destruct H as (k & b & t & -> & H).
    rewrite skip_repeat. destruct (frame_bytes f) as [|x fb] eqn:EF; [destruct (frame_bytes_ne f EF)|].
    cbn [app skip_empty]. cbn [parse_all].
    rewrite (parse_frame w f ((x :: fb ++ b) :: t) (b :: t)); auto.
    + rewrite (IH _ _ H E). reflexivity.
    + rewrite EF. apply (laid_field (x :: fb) [] 0); [discriminate|constructor].
Qed.

Theorem parse_long w f ext bufs rest : laid (fields f (127, ext)) bufs rest -> ext <> [] -> parse w bufs = PUndef.
Proof.
  intros H NE. unfold fields in H. fold (b1_of f) in H. cbn [fst snd] in H. fold (keyed f) in H.
  destruct (header2 (keyed f) 127 ltac:(reflexivity)) as (K1 & K2 & _).
  unfold parse. apply next_laid in H. destruct H as (bufs1 & -> & H).
  apply next_laid in H. destruct H as (bufs2 & -> & H). cbv zeta. rewrite K2. change (127 =? 127) with true. cbv iota.
  inversion H; subst; [congruence|]. unfold take. rewrite skip_repeat. destruct ext; [congruence|]. cbn [app skip_empty].
  destruct (Nat.ltb _ 8); reflexivity.
Qed.

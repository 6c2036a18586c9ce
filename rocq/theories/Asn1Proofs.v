(** Proofs about the ASN.1 decoder and encoder. *)
Require Import List Arith NArith ZArith Lia Bool Permutation.
Require Import ZifyBool ZifyNat ZifyN.
Import ListNotations.
Require Import Verif.Base Verif.Sweep Verif.EndianSpec Verif.EndianProofs Verif.CalModel.
Require Import Verif.Asn1Model Verif.Asn1Spec.
Local Open Scope N_scope.

(** * Tags and lengths *)

Definition isb (b : N) : Prop := b < 256.

Lemma tag_bits t : isb t -> N.land (N.shiftr t 6) 3 = t / 64 /\ N.land t 31 = t mod 32 /\
  N.testbit t 5 = ((t / 32) mod 2 =? 1).
Proof.
  intros H. pose proof (sweep1 256 (fun t => (N.land (N.shiftr t 6) 3 =? t / 64) && (N.land t 31 =? t mod 32) &&
    Bool.eqb (N.testbit t 5) ((t / 32) mod 2 =? 1)) ltac:(vm_compute; reflexivity) t H) as S. cbv beta in S.
  apply andb_true_iff in S. destruct S as [S S3]. apply andb_true_iff in S. destruct S as [S1 S2].
  apply N.eqb_eq in S1, S2. apply Bool.eqb_prop in S3. auto.
Qed.

Lemma len_bits c : isb c -> N.testbit c 7 = (128 <=? c) /\ N.land c 127 = c mod 128.
Proof.
  intros H. pose proof (sweep1 256 (fun c => Bool.eqb (N.testbit c 7) (128 <=? c) && (N.land c 127 =? c mod 128))
    ltac:(vm_compute; reflexivity) c H) as S. cbv beta in S.
  apply andb_true_iff in S. destruct S as [S1 S2]. apply N.eqb_eq in S2. apply Bool.eqb_prop in S1. auto.
Qed.

Lemma tag_make c (con : bool) i : c < 4 -> i < 32 ->
  N.lor (N.lor (N.shiftl c 6) (if con then 32 else 0)) (N.land i 31) = c * 64 + (if con then 32 else 0) + i.
Proof.
  intros C I.
  pose proof (sweep2 4 32 (fun c i => forallb (fun con : bool =>
    N.lor (N.lor (N.shiftl c 6) (if con then 32 else 0)) (N.land i 31) =? c * 64 + (if con then 32 else 0) + i) [true; false])
    ltac:(vm_compute; reflexivity) c i C I) as S. cbv beta in S.
  rewrite forallb_forall in S. apply N.eqb_eq, S. destruct con; [left|right; left]; reflexivity.
Qed.

Lemma tag_parts c (con : bool) i : c < 4 -> i < 32 ->
  let t := c * 64 + (if con then 32 else 0) + i in
  isb t /\ t / 64 = c /\ t mod 32 = i /\ ((t / 32) mod 2 =? 1) = con.
Proof. intros C I. cbv zeta. unfold isb. destruct con; repeat split; lia. Qed.

Lemma shl8 q k : N.shiftl q (8 * N.of_nat k) = q * 256 ^ N.of_nat k.
Proof. rewrite N.shiftl_mul_pow2, N.pow_mul_r. reflexivity. Qed.

Lemma read_length_value l : Forall isb l -> forall acc v,
  acc mod 256 ^ N.of_nat (length l) = 0 -> read_length l acc = Some v -> v = acc + be_value l.
Proof.
  induction 1 as [|q t Q T IH]; intros acc v A H.
  - cbn in *. injection H as <-. lia.
  - cbn [read_length] in H. destruct (_ && _); [|discriminate].
    rewrite shl8 in H.
    assert (L : N.lor acc (q * 256 ^ N.of_nat (length t)) = acc + q * 256 ^ N.of_nat (length t)).
    { apply lor_add with (k := 8 * N.of_nat (S (length t))).
      - rewrite N.pow_mul_r. change (2 ^ 8) with 256. rewrite Nat2N.inj_succ, N.pow_succ_r'.
        apply N.mul_lt_mono_pos_r; [|exact Q]. apply N.neq_0_lt_0, N.pow_nonzero. discriminate.
      - rewrite N.pow_mul_r. exact A. }
    rewrite L in H. apply IH in H; [|apply mod_pow_split; exact A].
    cbn [be_value]. lia.
Qed.

Lemma read_length_total l : Forall isb l -> (length l <= 4)%nat -> be_value l < 2 ^ 31 ->
  forall acc, exists v, read_length l acc = Some v.
Proof.
  induction 1 as [|q t Q T IH]; intros L B acc; [eexists; reflexivity|].
  cbn [read_length]. cbn [be_value length] in *.
  rewrite shl8.
  destruct (N.ltb_spec (8 * N.of_nat (length t)) 32) as [_|C]; [|clear - L C; lia].
  destruct (N.ltb_spec (q * 256 ^ N.of_nat (length t)) (2 ^ 31)) as [_|C].
  - cbn [andb]. apply IH; [clear - L; lia|]. eapply N.le_lt_trans; [|exact B]. clear; lia.
  - exfalso. revert C. apply N.lt_nge. eapply N.le_lt_trans; [|exact B]. clear; lia.
Qed.

Lemma be_value_snoc a b : be_value (a ++ [b]) = be_value a * 256 + b.
Proof.
  induction a as [|x a IH]; [cbn; lia|].
  cbn [app be_value]. rewrite IH, app_length. cbn [length]. rewrite Nat.add_1_r, Nat2N.inj_succ, N.pow_succ_r'. lia.
Qed.

Lemma digits_value f : forall n, n < 256 ^ N.of_nat f -> be_value (digits256 f n) = n.
Proof.
  induction f as [|f IH]; intros n H.
  - change (256 ^ N.of_nat 0) with 1 in H. cbn. lia.
  - cbn [digits256]. destruct (N.eqb_spec n 0) as [->|Z]; [reflexivity|].
    rewrite be_value_snoc, IH.
    + pose proof (N.div_mod n 256 ltac:(discriminate)). lia.
    + apply N.div_lt_upper_bound; [discriminate|]. rewrite <- N.pow_succ_r', <- Nat2N.inj_succ. exact H.
Qed.

Lemma digits_bytes f : forall n, Forall isb (digits256 f n).
Proof.
  induction f as [|f IH]; intros n; [constructor|]. cbn [digits256]. destruct (n =? 0); [constructor|].
  apply Forall_app; split; auto. constructor; [|constructor]. apply N.mod_lt. discriminate.
Qed.

Lemma digits_length k : forall f n, n < 256 ^ N.of_nat k -> (length (digits256 f n) <= k)%nat.
Proof.
  induction k as [|k IH]; intros [|f] n H; try (cbn; lia).
  - change (256 ^ N.of_nat 0) with 1 in H. replace n with 0 by lia. cbn. lia.
  - cbn [digits256]. destruct (n =? 0); [cbn; lia|]. rewrite app_length. cbn [length].
    specialize (IH f (n / 256)).
    assert (n / 256 < 256 ^ N.of_nat k); [|lia].
    apply N.div_lt_upper_bound; [discriminate|]. rewrite <- N.pow_succ_r', <- Nat2N.inj_succ. exact H.
Qed.

Lemma digits_explicit k : forall f n, (k <= f)%nat -> 256 ^ N.of_nat k <= n * 256 -> n < 256 ^ N.of_nat k ->
  digits256 f n = map (fun i => (n / 256 ^ N.of_nat i) mod 256) (rev (seq 0 k)).
Proof.
  induction k as [|k IH]; intros f n F L H.
  - change (256 ^ N.of_nat 0) with 1 in *. lia.
  - destruct f as [|f]; [lia|]. cbn [digits256].
    rewrite Nat2N.inj_succ, N.pow_succ_r' in L, H.
    assert (P : 256 ^ N.of_nat k <> 0) by (apply N.pow_nonzero; discriminate).
    destruct (N.eqb_spec n 0) as [->|Z]; [exfalso; clear - L P; lia|].
    cbn [seq]. rewrite <- seq_shift. cbn [rev]. rewrite map_app. f_equal.
    + rewrite <- map_rev, map_map.
      destruct (Nat.eq_dec k 0) as [->|K].
      * cbn [seq rev map]. change (256 * 256 ^ N.of_nat 0) with 256 in H.
        rewrite N.div_small by exact H. destruct f; reflexivity.
      * rewrite IH with (n := n / 256).
        -- apply map_ext. intros i. rewrite N.div_div by (try apply N.pow_nonzero; discriminate).
           rewrite Nat2N.inj_succ, N.pow_succ_r'. reflexivity.
        -- lia.
        -- destruct k as [|k]; [congruence|]. rewrite Nat2N.inj_succ, N.pow_succ_r' in *. clear - L. lia.
        -- clear - H. lia.
    + cbn [map]. change (256 ^ N.of_nat 0) with 1. rewrite N.div_1_r. reflexivity.
Qed.

Lemma lb_value n i : lb n (8 * N.of_nat i) = (n / 256 ^ N.of_nat i) mod 256.
Proof. unfold lb. rewrite land255, N.shiftr_div_pow2, N.pow_mul_r. reflexivity. Qed.

Lemma fill_octets n : n < 2 ^ 64 -> length_fill n = length_octets n.
Proof.
  intros H. unfold length_fill, length_octets.
  assert (E : forall k, (k <= 8)%nat -> 256 ^ N.of_nat k <= n * 256 -> n < 256 ^ N.of_nat k ->
    digits256 8 n = map (fun i => lb n (8 * N.of_nat i)) (rev (seq 0 k))).
  { intros k K L U. rewrite (digits_explicit k) by auto. apply map_ext. intros i. symmetry. apply lb_value. }
  destruct (N.ltb_spec 127 n) as [A|A].
  2:{ destruct (N.ltb_spec n 128) as [_|B]; [|clear - A B; lia].
      rewrite land255, N.mod_small by (clear - A; lia). reflexivity. }
  destruct (N.ltb_spec n 128) as [B|_]; [clear - A B; lia|].
  destruct (N.ltb_spec 0xff n) as [B1|B1].
  2:{ rewrite (E 1%nat); [|lia|cbn; clear - A; lia|cbn; clear - B1; lia]. cbn [seq rev map app length].
      unfold lb. rewrite N.shiftr_0_r. reflexivity. }
  destruct (N.ltb_spec 0xffff n) as [B2|B2].
  2:{ rewrite (E 2%nat); [reflexivity|lia|cbn; clear - B1; lia|cbn; clear - B2; lia]. }
  destruct (N.ltb_spec 0xffffff n) as [B3|B3].
  2:{ rewrite (E 3%nat); [reflexivity|lia|cbn; clear - B2; lia|cbn; clear - B3; lia]. }
  destruct (N.ltb_spec 0xffffffff n) as [B4|B4].
  2:{ rewrite (E 4%nat); [reflexivity|lia|cbn; clear - B3; lia|cbn; clear - B4; lia]. }
  destruct (N.ltb_spec 0xffffffffff n) as [B5|B5].
  2:{ rewrite (E 5%nat); [reflexivity|lia|cbn; clear - B4; lia|cbn; clear - B5; lia]. }
  destruct (N.ltb_spec 0xffffffffffff n) as [B6|B6].
  2:{ rewrite (E 6%nat); [reflexivity|lia|cbn; clear - B5; lia|cbn; clear - B6; lia]. }
  destruct (N.ltb_spec 0xffffffffffffff n) as [B7|B7].
  2:{ rewrite (E 7%nat); [reflexivity|lia|cbn; clear - B6; lia|cbn; clear - B7; lia]. }
  rewrite (E 8%nat); [reflexivity|lia|cbn; clear - B7; lia|exact H].
Qed.

Lemma calc_size n : n < 2 ^ 63 -> length_calc n = n + 1 + N.of_nat (length (length_fill n)).
Proof.
  intros H. unfold length_calc, length_fill.
  rewrite (N.mod_small (n + 1)) by (clear - H; lia).
  assert (M : forall k, k < 100 -> (n + 1 + k) mod 2 ^ 64 = n + 1 + k).
  { intros k K. apply N.mod_small. clear - H K. lia. }
  repeat match goal with |- context [?a <? n] => destruct (a <? n) end;
    rewrite M by reflexivity; reflexivity.
Qed.

Lemma fill_ok n tag content : n = N.of_nat (length content) -> n < 2 ^ 63 ->
  fill_buffer n tag content = Some (tag :: length_octets n ++ content).
Proof.
  intros E H. unfold fill_buffer. rewrite calc_size by auto. cbn [length].
  rewrite app_length. rewrite fill_octets by (clear - H; lia).
  replace (_ =? _) with true; [reflexivity|]. symmetry. apply N.eqb_eq. subst n. lia.
Qed.

Lemma octets_length n : (1 <= length (length_octets n) <= 9)%nat.
Proof.
  unfold length_octets. destruct (n <? 128); cbn [length]; [lia|].
  assert (G : forall f m, (length (digits256 f m) <= f)%nat).
  { induction f; intros m; cbn [digits256]; [cbn; lia|]. destruct (m =? 0); [cbn; lia|].
    rewrite app_length. specialize (IHf (m / 256)). cbn [length]. lia. }
  pose proof (G 8%nat n). lia.
Qed.

(** * Decoding an encoded element *)

Section ElemInd.
  Variable P : elem -> Prop.
  Hypothesis HP : forall c i content, P (Prim c i content).
  Hypothesis HC : forall c i kids, Forall P kids -> P (Cons c i kids).
  Fixpoint elem_ind2 (e : elem) : P e :=
    match e with
    | Prim c i content => HP c i content
    | Cons c i kids =>
        HC c i kids ((fix go (ks : list elem) : Forall P ks :=
          match ks with [] => Forall_nil P | k :: ks' => Forall_cons k (elem_ind2 k) (go ks') end) kids)
    end.
End ElemInd.

Lemma firstn_len_app {A} (l r : list A) : firstn (length l) (l ++ r) = l.
Proof. rewrite firstn_app, Nat.sub_diag, firstn_all. cbn [firstn]. apply app_nil_r. Qed.

Lemma skipn_len_app {A} (l r : list A) : skipn (length l) (l ++ r) = r.
Proof. rewrite skipn_app, Nat.sub_diag, skipn_all. reflexivity. Qed.

Lemma header_ok f tag content rest : N.of_nat (length content) < 2 ^ 31 ->
  decode_recursive (S f) ((tag :: length_octets (N.of_nat (length content)) ++ content) ++ rest) =
  decode_body (decode_recursive f) (tag :: length_octets (N.of_nat (length content))) tag
    (N.of_nat (length content)) (content ++ rest).
Proof.
  intros H. set (n := N.of_nat (length content)) in *. unfold length_octets.
  destruct (N.ltb_spec n 128) as [A|A].
  - cbn [app decode_recursive]. destruct (len_bits n) as [-> _]; [clear - A; unfold isb; lia|].
    destruct (N.leb_spec 128 n) as [B|_]; [clear - A B; lia|]. reflexivity.
  - assert (L : (length (digits256 8 n) <= 4)%nat).
    { apply digits_length. change (256 ^ N.of_nat 4) with (2 ^ 32). clear - H. lia. }
    assert (V : be_value (digits256 8 n) = n).
    { apply digits_value. change (256 ^ N.of_nat 8) with (2 ^ 64). clear - H. lia. }
    pose proof (digits_bytes 8 n) as DB.
    set (d := digits256 8 n) in *. clearbody d.
    cbv zeta. cbn [app decode_recursive].
    destruct (len_bits (128 + N.of_nat (length d))) as [-> ->]; [clear - L; unfold isb; lia|].
    destruct (N.leb_spec 128 (128 + N.of_nat (length d))) as [_|B]; [|clear - B; lia].
    assert (K : (128 + N.of_nat (length d)) mod 128 = N.of_nat (length d)) by (clear - L; lia).
    rewrite K. destruct (N.ltb_spec 8 (N.of_nat (length d))) as [B|_]; [clear - L B; lia|].
    rewrite Nat2N.id.
    destruct (N.leb_spec (N.of_nat (length ((d ++ content) ++ rest))) (N.of_nat (length d))) as [B|_].
    { rewrite !app_length in B. clear - A B n. exfalso. lia. }
    rewrite <- app_assoc, firstn_len_app, skipn_len_app.
    destruct (read_length_total d DB L) with (acc := 0) as [v R]; [rewrite V; exact H|].
    rewrite R. apply read_length_value in R; auto.
    rewrite N.add_0_l, V in R. subst v. reflexivity.
Qed.

Lemma decode_all_app dec : forall ts n,
  Forall (fun t => forall rest, dec (der t ++ rest) = Done (view t) rest) ts ->
  Forall (fun t => der t <> []) ts ->
  (length ts <= n)%nat -> decode_all dec n (flat_map der ts) = Done (map view ts) [].
Proof.
  induction ts as [|t ts IH]; intros n D NE L.
  - destruct n; reflexivity.
  - inversion D; subst. inversion NE; subst. destruct n as [|n]; [cbn in L; lia|].
    cbn [flat_map map]. destruct (der t) as [|b s] eqn:E; [congruence|].
    cbn [app decode_all]. rewrite <- E in *.
    change (b :: s ++ flat_map der ts) with ((b :: s) ++ flat_map der ts). rewrite <- E.
    rewrite H1. rewrite IH; auto. cbn in L; lia.
Qed.

Lemma der_len c con i content : (2 + length content <= length (tlv c con i content))%nat.
Proof.
  unfold tlv. cbn [length]. rewrite app_length.
  pose proof (octets_length (N.of_nat (length content))). lia.
Qed.

Lemma der_ne e : (2 <= length (der e))%nat.
Proof. destruct e; cbn [der]; eapply Nat.le_trans; [|apply der_len| |apply der_len]; lia. Qed.

Lemma flat_map_len_in (ks : list elem) k : In k ks -> (length (der k) <= length (flat_map der ks))%nat.
Proof.
  induction ks as [|a ks IH]; intros H; [destruct H|]. cbn [flat_map]. rewrite app_length.
  destruct H as [->|H]; [lia|]. apply IH in H. lia.
Qed.

Lemma flat_map_count (ks : list elem) : (2 * length ks <= length (flat_map der ks))%nat.
Proof.
  induction ks as [|a ks IH]; [cbn; lia|]. cbn [flat_map length]. rewrite app_length.
  pose proof (der_ne a). lia.
Qed.

Theorem decode_der e : wf e -> N.of_nat (length (der e)) < 2 ^ 31 ->
  forall f rest, (length (der e) <= f)%nat -> decode_recursive f (der e ++ rest) = Done (view e) rest.
Proof.
  induction e as [c i content|c i kids IH] using elem_ind2; intros W S f rest F.
  - inversion W; subst. cbn [der] in *. pose proof (der_len c false i content) as DL.
    destruct f as [|f]; [lia|]. unfold tlv at 1.
    rewrite header_ok by lia. unfold decode_body.
    destruct (tag_parts c false i H2 H3) as (T1 & T2 & T3 & T4). cbv zeta in *.
    set (t := c * 64 + 0 + i) in *.
    destruct (tag_bits t T1) as (-> & -> & ->). rewrite T2, T3, T4.
    destruct (N.ltb_spec (N.of_nat (length (content ++ rest))) (N.of_nat (length content))) as [B|_];
      [rewrite app_length in B; lia|].
    rewrite Nat2N.id, firstn_len_app, skipn_len_app. reflexivity.
  - inversion W; subst. cbn [der] in *. pose proof (der_len c true i (flat_map der kids)) as DL.
    destruct f as [|f]; [lia|]. unfold tlv at 1.
    rewrite header_ok by lia. unfold decode_body.
    destruct (tag_parts c true i H2 H3) as (T1 & T2 & T3 & T4). cbv zeta in *.
    set (t := c * 64 + 32 + i) in *.
    destruct (tag_bits t T1) as (-> & -> & ->). rewrite T2, T3, T4.
    destruct (N.ltb_spec (N.of_nat (length (flat_map der kids ++ rest))) (N.of_nat (length (flat_map der kids)))) as [B|_];
      [rewrite app_length in B; lia|].
    rewrite Nat2N.id, firstn_len_app, skipn_len_app.
    rewrite decode_all_app; [reflexivity| | |].
    + rewrite Forall_forall in *. intros k K r. pose proof (flat_map_len_in kids k K).
      apply IH; auto; lia.
    + rewrite Forall_forall. intros k K E. pose proof (der_ne k). rewrite E in H. cbn in H. lia.
    + pose proof (flat_map_count kids). lia.
Qed.

(** * Whatever is decoded tiles its bytes *)

Lemma decode_all_inv dec (Q : dres -> Prop) : forall n l rs e,
  (forall l r rest, Forall isb l -> dec l = Done r rest -> l = code_of r ++ rest /\ Q r) ->
  Forall isb l -> decode_all dec n l = Done rs e -> e = [] /\ l = flat_map code_of rs /\ Forall Q rs.
Proof.
  induction n as [|n IH]; intros l rs e D B H.
  - destruct l; cbn in H; [|discriminate]. injection H as <- <-. auto.
  - destruct l as [|b l]; [cbn in H; injection H as <- <-; auto|].
    cbn [decode_all] in H. destruct (dec (b :: l)) as [r rest| | | |] eqn:E; try discriminate.
    destruct (D _ _ _ B E) as [E1 E2].
    destruct (decode_all dec n rest) as [rs' e'| | | |] eqn:E3; try discriminate.
    injection H as <- <-.
    assert (B2 : Forall isb rest) by (rewrite E1 in B; apply Forall_app in B; tauto).
    apply IH in E3; auto. destruct E3 as (-> & E4 & E5). split; [auto|]. split.
    + cbn [flat_map]. rewrite E1. f_equal. exact E4.
    + constructor; auto.
Qed.

Lemma body_inv dec used tag lo len after r rest :
  (forall l r rest, Forall isb l -> dec l = Done r rest -> l = code_of r ++ rest /\ tiles r) ->
  used = tag :: lo -> isb tag -> Forall isb after -> says lo len ->
  decode_body dec used tag len after = Done r rest ->
  used ++ after = code_of r ++ rest /\ tiles r.
Proof.
  intros D -> T A Sy H. unfold decode_body in H.
  destruct (N.ltb_spec (N.of_nat (length after)) len) as [C|C]; [discriminate|].
  pose proof (firstn_skipn (N.to_nat len) after) as FS.
  assert (FL : N.of_nat (length (firstn (N.to_nat len) after)) = len).
  { rewrite firstn_length. clear - C. lia. }
  set (body := firstn (N.to_nat len) after) in *. set (tl := skipn (N.to_nat len) after) in *.
  assert (BB : Forall isb body) by (rewrite <- FS in A; apply Forall_app in A; tauto).
  clearbody body tl. destruct (tag_bits tag T) as (E1 & E2 & E3). rewrite E1, E2, E3 in H.
  destruct (N.eqb_spec ((tag / 32) mod 2) 1) as [B5|B5].
  - destruct (decode_all dec (length body) body) as [rs e| | | |] eqn:DA; try discriminate.
    injection H as <- <-. apply (decode_all_inv dec tiles) in DA; auto.
    destruct DA as (-> & -> & F). cbn [code_of].
    split; [rewrite <- FS; rewrite app_assoc; reflexivity|].
    cbn [app]. apply tiles_cons; auto. rewrite FL. exact Sy.
  - injection H as <- <-. cbn [code_of]. split; [rewrite <- FS; rewrite app_assoc; reflexivity|].
    cbn [app]. apply tiles_prim; [|rewrite FL; exact Sy].
    clear - B5. lia.
Qed.

Theorem decode_tiles : forall f code r rest, Forall isb code ->
  decode_recursive f code = Done r rest -> code = code_of r ++ rest /\ tiles r.
Proof.
  induction f as [|f IH]; intros code r rest B H; [discriminate|].
  destruct code as [|tag [|ch p]]; cbn [decode_recursive] in H; try discriminate.
  inversion B as [|? ? B1 B']; subst. inversion B' as [|? ? B2 B3]; subst.
  destruct (len_bits ch B2) as [L1 L2]. rewrite L1, L2 in H.
  destruct (N.leb_spec 128 ch) as [C|C].
  - set (k := ch mod 128) in *.
    destruct (N.ltb_spec 8 k) as [K|K]; [discriminate|].
    destruct (N.leb_spec (N.of_nat (length p)) k) as [K2|K2]; [discriminate|].
    destruct (read_length (firstn (N.to_nat k) p) 0) as [len|] eqn:R; [|discriminate].
    pose proof (firstn_skipn (N.to_nat k) p) as FS.
    assert (FL : N.of_nat (length (firstn (N.to_nat k) p)) = k) by (rewrite firstn_length; clear - K2; lia).
    set (d := firstn (N.to_nat k) p) in *. set (q := skipn (N.to_nat k) p) in *.
    assert (BD : Forall isb d /\ Forall isb q) by (rewrite <- FS in B3; apply Forall_app in B3; auto).
    destruct BD as [BD BQ].
    apply read_length_value in R; auto.
    apply (body_inv _ _ tag (ch :: d)) in H; auto.
    + rewrite <- FS. exact H.
    + right. exists d. split; [|rewrite R; apply N.add_0_l]. f_equal. rewrite FL. unfold k, isb in *. clear - C B2. lia.
  - apply (body_inv _ _ tag [ch]) in H; auto. left. split; [reflexivity|exact C].
Qed.

(** * The recursion is bounded by the number of bytes *)

Lemma decode_shorter : forall f code r rest,
  decode_recursive f code = Done r rest -> (length rest + 2 <= length code)%nat.
Proof.
  assert (BL : forall dec used t len after r rest,
    decode_body dec used t len after = Done r rest -> (length rest <= length after)%nat).
  { intros dec used t len after r rest H. unfold decode_body in H.
    destruct (_ <? len); [discriminate|].
    assert (E : rest = skipn (N.to_nat len) after).
    { destruct (N.testbit t 5).
      - destruct (decode_all _ _ _); try discriminate. injection H as _ <-. reflexivity.
      - injection H as _ <-. reflexivity. }
    rewrite E, skipn_length. lia. }
  intros [|f] code r rest H; [discriminate|].
  destruct code as [|tag [|ch p]]; cbn [decode_recursive] in H; try discriminate.
  cbn [length]. destruct (N.testbit ch 7).
  - destruct (8 <? _); [discriminate|]. destruct (_ <=? _); [discriminate|].
    destruct (read_length _ 0); [|discriminate]. apply BL in H. rewrite skipn_length in H. lia.
  - apply BL in H. lia.
Qed.

Lemma decode_all_not_stuck dec : forall n l,
  (forall l' r rest, dec l' = Done r rest -> (length rest + 2 <= length l')%nat) ->
  (forall l', (length l' <= length l)%nat -> dec l' <> Stuck) ->
  (length l <= n)%nat -> decode_all dec n l <> Stuck.
Proof.
  induction n as [|n IH]; intros l D S L.
  - destruct l; [discriminate|cbn in L; lia].
  - destruct l as [|b l]; [discriminate|]. cbn [decode_all].
    destruct (dec (b :: l)) as [r rest| | | |] eqn:E; try discriminate.
    + pose proof (D _ _ _ E) as D1. cbn [length] in *.
      assert (decode_all dec n rest <> Stuck).
      { apply IH; auto; [|lia]. intros l' L'. apply S. lia. }
      destruct (decode_all dec n rest); congruence.
    + exfalso. eapply S; [|exact E]. lia.
Qed.

Theorem decode_not_stuck : forall f code, (length code < f)%nat -> decode_recursive f code <> Stuck.
Proof.
  induction f as [|f IH]; intros code L; [lia|].
  assert (BS : forall used t len after, (length after < f)%nat -> decode_body (decode_recursive f) used t len after <> Stuck).
  { intros used t len after A. unfold decode_body. destruct (_ <? len); [discriminate|].
    destruct (N.testbit t 5); [|discriminate].
    set (body := firstn (N.to_nat len) after).
    assert (length body <= length after)%nat by (unfold body; rewrite firstn_length; lia).
    assert (G : decode_all (decode_recursive f) (length body) body <> Stuck).
    { apply decode_all_not_stuck; [intros; eapply decode_shorter; eauto| |lia].
      intros l' L'. apply IH. lia. }
    destruct (decode_all _ _ _); congruence. }
  destruct code as [|tag [|ch p]]; cbn [decode_recursive]; try discriminate.
  cbn [length] in L. destruct (N.testbit ch 7); [|apply BS; lia].
  destruct (8 <? _); [discriminate|]. destruct (_ <=? _); [discriminate|].
  destruct (read_length _ 0); [|discriminate]. apply BS. rewrite skipn_length. lia.
Qed.

(** * Undefined behaviour needs a length field of four bytes or more *)

Definition long_length (l : list N) : Prop :=
  exists pre tag ch post, l = pre ++ tag :: ch :: post /\ 0x84 <= ch <= 0x88.

Lemma long_app a b c : long_length b -> long_length (a ++ b ++ c).
Proof.
  intros (pre & t & ch & post & -> & C). exists (a ++ pre), t, ch, (post ++ c).
  split; [rewrite <- !app_assoc; reflexivity|exact C].
Qed.

Lemma read_length_short l : Forall isb l -> (length l <= 3)%nat -> forall acc, read_length l acc <> None.
Proof.
  intros B L acc. destruct (read_length_total l B) with (acc := acc) as [v ->]; [lia| |discriminate].
  eapply N.lt_le_trans; [apply be_value_bound|].
  - exact B.
  - eapply N.le_trans; [apply N.pow_le_mono_r with (c := 3); [discriminate|lia]|]. discriminate.
Qed.

Lemma decode_all_undef dec : forall n l, Forall isb l ->
  (forall l' r rest, Forall isb l' -> dec l' = Done r rest -> exists c, l' = c ++ rest) ->
  (forall l', Forall isb l' -> dec l' = Undefined -> long_length l') ->
  decode_all dec n l = Undefined -> long_length l.
Proof.
  induction n as [|n IH]; intros l B D U H.
  - destruct l; discriminate.
  - destruct l as [|b l]; [discriminate|]. cbn [decode_all] in H.
    destruct (dec (b :: l)) as [r rest| | | |] eqn:E; try discriminate; [|apply U; auto].
    destruct (D _ _ _ B E) as [c Ec]. rewrite Ec in B |- *.
    assert (B2 : Forall isb rest) by (apply Forall_app in B; tauto).
    destruct (decode_all dec n rest) eqn:E2; try discriminate.
    apply IH in E2; auto. apply (long_app c _ []) in E2. rewrite app_nil_r in E2. exact E2.
Qed.

Theorem decode_undef : forall f code, Forall isb code ->
  decode_recursive f code = Undefined -> long_length code.
Proof.
  induction f as [|f IH]; intros code B H; [discriminate|].
  destruct code as [|tag [|ch p]]; cbn [decode_recursive] in H; try discriminate.
  assert (BU : forall used t len after, Forall isb after ->
    decode_body (decode_recursive f) used t len after = Undefined -> long_length (used ++ after)).
  { clear H. intros used t len after A H. unfold decode_body in H. destruct (_ <? len); [discriminate|].
    destruct (N.testbit t 5); [|discriminate].
    destruct (decode_all _ _ _) eqn:E; try discriminate.
    rewrite <- (firstn_skipn (N.to_nat len) after) in A |- *. apply Forall_app in A. destruct A as [A1 A2].
    apply long_app. eapply decode_all_undef in E; eauto.
    intros l' r rest L' D. apply decode_tiles in D; auto. destruct D as [D _]. exists (code_of r). exact D. }
  inversion B as [|? ? B1 B']; subst. inversion B' as [|? ? B2 B3]; subst.
  destruct (len_bits ch B2) as [L1 L2]. rewrite L1, L2 in H.
  destruct (N.leb_spec 128 ch) as [C|C].
  - destruct (N.ltb_spec 8 (ch mod 128)) as [K|K]; [discriminate|].
    destruct (N.leb_spec (N.of_nat (length p)) (ch mod 128)) as [K2|K2]; [discriminate|].
    destruct (read_length (firstn (N.to_nat (ch mod 128)) p) 0) as [len|] eqn:R.
    + apply BU in H.
      * cbn [app] in H. rewrite firstn_skipn in H. exact H.
      * rewrite <- (firstn_skipn (N.to_nat (ch mod 128)) p) in B3. apply Forall_app in B3. tauto.
    + exists [], tag, ch, p. split; [reflexivity|].
      destruct (N.lt_ge_cases ch 0x84) as [D|D]; [|unfold isb in B2; clear - C K D B2; lia].
      exfalso. apply (read_length_short (firstn (N.to_nat (ch mod 128)) p)) with (acc := 0); auto.
      * rewrite <- (firstn_skipn (N.to_nat (ch mod 128)) p) in B3. apply Forall_app in B3. tauto.
      * rewrite firstn_length. clear - C D. lia.
  - apply BU in H; auto.
Qed.

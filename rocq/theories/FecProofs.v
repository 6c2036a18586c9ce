(** * Forward error correction: proofs *)

From Coq Require Import List Arith NArith ZArith Bool Lia ZifyBool ZifyNat ZifyN Permutation.
From Verif Require Import Base Sweep EndianSpec EndianProofs GfProofs FecModel FecSpec.
Import ListNotations.
Local Open Scope N_scope.

Notation at_ i l := (nth i l 0).

(** ** Folding strings *)

Lemma xor_into_at : forall long short i, (length short <= length long)%nat ->
  at_ i (xor_into long short) = N.lxor (at_ i long) (at_ i short).
Proof.
  induction long as [|x l IH]; intros short i H.
  - destruct short; [|cbn in H; lia]. destruct i; reflexivity.
  - destruct short as [|y s].
    + cbn [xor_into]. destruct i; cbn [nth]; now rewrite N.lxor_0_r.
    + cbn [xor_into]. destruct i; cbn [nth]; [reflexivity|]. apply IH. cbn in H. lia.
Qed.

Lemma xor_into_length : forall long short, (length short <= length long)%nat ->
  length (xor_into long short) = length long.
Proof.
  induction long as [|x l IH]; intros short H; destruct short; cbn in *; auto; try lia.
  rewrite IH; lia.
Qed.

Lemma fec_xor_at a b i : at_ i (fec_xor a b) = N.lxor (at_ i a) (at_ i b).
Proof.
  unfold fec_xor. destruct (Nat.ltb_spec (length b) (length a)).
  - apply xor_into_at. lia.
  - rewrite xor_into_at by lia. apply N.lxor_comm.
Qed.

Lemma fec_xor_length a b : length (fec_xor a b) = Nat.max (length a) (length b).
Proof.
  unfold fec_xor. destruct (Nat.ltb_spec (length b) (length a)); rewrite xor_into_length; lia.
Qed.

Definition xsum {A} (h : A -> N) (l : list A) : N := fold_right (fun p t => N.lxor (h p) t) 0 l.

Lemma xsum_fold {A} (h : A -> list N) i : forall g t,
  at_ i (fold_left (fun t p => fec_xor (h p) t) g t) =
  N.lxor (at_ i t) (xsum (fun p => at_ i (h p)) g).
Proof.
  induction g as [|p g IH]; intros t; cbn [fold_left xsum fold_right].
  - now rewrite N.lxor_0_r.
  - rewrite IH, fec_xor_at. unfold xsum.
    rewrite (N.lxor_comm (at_ i (h p))), N.lxor_assoc. reflexivity.
Qed.

Lemma xsum_byte {A} (h : A -> N) g : Forall (fun p => h p < 256) g -> xsum h g < 256.
Proof.
  induction 1; cbn [xsum fold_right]; [reflexivity|]. apply lxor_byte; auto.
Qed.

Lemma xsum_remove {A} (dec : forall x y : A, {x = y} + {x <> y}) (h : A -> N) p : forall l,
  NoDup l -> In p l ->
  xsum h l = N.lxor (h p) (xsum h (filter (fun q => if dec p q then false else true) l)).
Proof.
  induction l as [|q l IH]; intros Hn Hi; [destruct Hi|].
  inversion Hn; subst. cbn [xsum fold_right filter]. destruct (dec p q) as [->|ne].
  - f_equal. change (xsum h l = xsum h (filter (fun q0 => if dec q q0 then false else true) l)).
    f_equal. clear - H1. induction l as [|r l IH]; [reflexivity|]. cbn [filter].
    destruct (dec q r) as [->|]; [elim H1; now left|]. f_equal. apply IH. intros H; apply H1; now right.
  - destruct Hi as [->|Hi]; [congruence|]. cbn [fold_right].
    change (N.lxor (h q) (xsum h l) = N.lxor (h p) (N.lxor (h q)
      (xsum h (filter (fun q0 => if dec p q0 then false else true) l)))).
    rewrite (IH H2 Hi). rewrite <- !N.lxor_assoc. f_equal. apply N.lxor_comm.
Qed.

(** ** Reading and writing numbers *)

Lemma put_be_bytes k n : put_be k n = be_bytes k n.
Proof. induction k; cbn; congruence. Qed.

Lemma put_be_length k n : length (put_be k n) = k.
Proof. rewrite put_be_bytes. apply be_bytes_length. Qed.

Lemma get_put k n : n < 256 ^ N.of_nat k -> get_be (put_be k n) = n.
Proof.
  intros H. unfold get_be. rewrite put_be_bytes, be_value_bytes. now apply N.mod_small.
Qed.

Lemma put_get : forall l, bytes l -> put_be (length l) (get_be l) = l.
Proof.
  unfold get_be.
  assert (G : forall l c, bytes l -> put_be (length l) (be_value l + c * 256 ^ N.of_nat (length l)) = l).
  2:{ intros l H. rewrite <- (G l 0 H) at 3. f_equal; lia. }
  induction l as [|b l IH]; intros c Hb; [reflexivity|]. inversion Hb; subst.
  assert (P : 256 ^ N.of_nat (length l) <> 0) by (apply N.pow_nonzero; lia).
  pose proof (be_value_bound l H2) as B. unfold is_byte in H1.
  cbn [length put_be be_value]. rewrite Nat2N.inj_succ, N.pow_succ_r'.
  set (q := 256 ^ N.of_nat (length l)) in *.
  replace (b * q + be_value l + c * (256 * q)) with (be_value l + (b + c * 256) * q) by lia.
  f_equal.
  - rewrite N.div_add by auto. rewrite N.div_small by auto. rewrite N.add_0_l, N.mod_add by lia.
    now apply N.mod_small.
  - now apply IH.
Qed.

Lemma slice_length off k p : (off + k <= length p)%nat -> length (slice off k p) = k.
Proof. intros H. unfold slice. rewrite firstn_length, skipn_length. lia. Qed.

Lemma nth_skipn_n : forall off (p : list N) i, at_ i (skipn off p) = at_ (off + i) p.
Proof.
  induction off; intros p i; [reflexivity|]. destruct p; cbn [skipn].
  - destruct i; reflexivity.
  - rewrite IHoff. reflexivity.
Qed.

Lemma nth_firstn_n : forall k (p : list N) i, (i < k)%nat -> at_ i (firstn k p) = at_ i p.
Proof.
  induction k; intros p i H; [lia|]. destruct p; [reflexivity|]. destruct i; [reflexivity|].
  cbn [firstn nth]. apply IHk. lia.
Qed.

Lemma slice_at off k p i : (i < k)%nat -> at_ i (slice off k p) = at_ (off + i) p.
Proof. intros H. unfold slice. rewrite nth_firstn_n by auto. apply nth_skipn_n. Qed.

Lemma list_at (a b : list N) : length a = length b ->
  (forall i, (i < length a)%nat -> at_ i a = at_ i b) -> a = b.
Proof. intros H K. apply (nth_ext a b 0 0 H K). Qed.

Lemma slice_app1 off k a b : (off + k <= length a)%nat -> slice off k (a ++ b) = slice off k a.
Proof.
  intros H. apply list_at.
  - rewrite !slice_length; rewrite ?app_length; lia.
  - intros i Hi. rewrite slice_length in Hi by (rewrite app_length; lia).
    rewrite !slice_at by auto. rewrite app_nth1 by lia. reflexivity.
Qed.

Lemma slice_app2 off k a b : (length a <= off)%nat -> slice off k (a ++ b) = slice (off - length a) k b.
Proof.
  intros H. unfold slice. rewrite skipn_app. rewrite (skipn_all2 a) by auto. reflexivity.
Qed.

Lemma slice_exact a b k : k = length a -> slice 0 k (a ++ b) = a.
Proof. intros ->. unfold slice. cbn [skipn]. rewrite firstn_app, Nat.sub_diag, firstn_O, app_nil_r. apply firstn_all. Qed.

Lemma slice2 off p : (off + 2 <= length p)%nat -> slice off 2 p = [at_ off p; at_ (S off) p].
Proof.
  intros H. apply list_at; [now rewrite slice_length|]. rewrite slice_length by auto.
  intros i Hi. rewrite slice_at by auto. destruct i as [|[|]]; cbn [nth]; try lia; f_equal; lia.
Qed.

Lemma slice_bytes off k p : bytes p -> bytes (slice off k p).
Proof.
  intros H. unfold slice. apply Forall_forall. intros x Hx.
  assert (E : In x (skipn off p)).
  { rewrite <- (firstn_skipn k). apply in_or_app. now left. }
  assert (E' : In x p).
  { rewrite <- (firstn_skipn off). apply in_or_app. now right. }
  unfold bytes in H. rewrite Forall_forall in H. auto.
Qed.

Lemma seq_of_sequence p : (4 <= length p)%nat -> seq_of p = sequence p.
Proof.
  intros H. unfold seq_of, get_be. rewrite slice2 by lia. unfold sequence, octet.
  cbn [be_value length]. change (256 ^ N.of_nat 1) with 256. change (256 ^ N.of_nat 0) with 1. lia.
Qed.

Lemma is_fec_type pt p : is_fec pt p = (payload_type p =? pt).
Proof.
  unfold is_fec, payload_type, octet, byte_at. change 0x7f with (N.ones 7). now rewrite N.land_ones.
Qed.

Lemma at_byte i p : bytes p -> at_ i p < 256.
Proof.
  intros H. destruct (Nat.lt_ge_cases i (length p)) as [L|L].
  - unfold bytes in H. rewrite Forall_forall in H. apply H. now apply nth_In.
  - rewrite nth_overflow by auto. lia.
Qed.

Lemma put_seq p : bytes p -> (12 <= length p)%nat -> put_be 2 (sequence p) = slice 2 2 p.
Proof.
  intros Hb Hl. rewrite <- seq_of_sequence by lia. unfold seq_of.
  rewrite <- (slice_length 2 2 p) at 1 by lia. apply put_get. now apply slice_bytes.
Qed.

(** ** Masks *)

Section Group.

Variable base : N.
Variable width : Z.
Variable g : list (list N).
Hypothesis width_ok : (0 <= width < 64)%Z.
Hypothesis g_len : Forall (fun p => (12 <= length p)%nat) g.
Hypothesis g_seq : NoDup (map sequence g).
Hypothesis g_range : Forall (fun p => base <= sequence p /\ (Z.of_N (sequence p) <= Z.of_N base + width)%Z) g.

(** The number of the bit that stands for a packet. *)
Definition pos (p : list N) : N := Z.to_N (width - dist base (sequence p)).

Definition represents (mask : N) (rem : list (list N)) : Prop :=
  forall s, N.testbit mask s = true <-> exists q, In q rem /\ pos q = s.

Lemma pos_bit p : In p g -> bit (width - dist base (seq_of p)) = Some (2 ^ pos p).
Proof.
  intros Hp. pose proof (proj1 (Forall_forall _ _) g_len p Hp) as L. cbn beta in L.
  pose proof (proj1 (Forall_forall _ _) g_range p Hp) as R. cbn beta in R.
  rewrite seq_of_sequence by lia. unfold bit, pos. unfold dist in *.
  destruct (Z.leb_spec 0 (width - (Z.of_N (sequence p) - Z.of_N base))); [|lia].
  destruct (Z.ltb_spec (width - (Z.of_N (sequence p) - Z.of_N base)) 64); [|lia].
  reflexivity.
Qed.

Lemma pos_le p : In p g -> pos p <= Z.to_N width.
Proof.
  intros Hp. pose proof (proj1 (Forall_forall _ _) g_range p Hp) as R. cbn beta in R.
  unfold pos, dist. lia.
Qed.

Lemma seq_inj p q : In p g -> In q g -> sequence p = sequence q -> p = q.
Proof.
  clear - g_seq. induction g as [|r l IH]; intros Hp Hq E; [destruct Hp|].
  cbn [map] in g_seq. inversion g_seq; subst.
  destruct Hp as [->|Hp], Hq as [->|Hq]; auto.
  - elim H1. rewrite E. now apply in_map.
  - elim H1. rewrite <- E. now apply in_map.
Qed.

Lemma pos_inj p q : In p g -> In q g -> pos p = pos q -> p = q.
Proof.
  intros Hp Hq E. apply seq_inj; auto.
  pose proof (proj1 (Forall_forall _ _) g_range p Hp) as R1. cbn beta in R1.
  pose proof (proj1 (Forall_forall _ _) g_range q Hq) as R2. cbn beta in R2.
  unfold pos, dist in E. lia.
Qed.

Lemma testbit_pow a s : N.testbit (2 ^ a) s = (a =? s).
Proof. rewrite N.pow2_bits_eqb. reflexivity. Qed.

Lemma make_mask_ok : forall l mask done, incl l g -> represents mask done ->
  exists m, make_mask width base l mask = Some m /\ represents m (done ++ l).
Proof.
  induction l as [|p l IH]; intros mask done Hl Hr; cbn [make_mask].
  - exists mask. split; auto. now rewrite app_nil_r.
  - rewrite (pos_bit p) by (apply Hl; now left). cbn [obind].
    destruct (IH (N.lor mask (2 ^ pos p)) (done ++ [p])) as (m & E & R).
    + intros x Hx. apply Hl. now right.
    + intros s. rewrite N.lor_spec, testbit_pow, orb_true_iff, N.eqb_eq, (Hr s). split.
      * intros [(q & Hq & Eq)|Eq]; [exists q|exists p]; split; auto; apply in_or_app; cbn; auto.
      * intros (q & Hq & Eq). apply in_app_or in Hq. destruct Hq as [Hq|[->|[]]]; eauto.
    + exists m. split; auto. now rewrite <- app_assoc in R.
Qed.

Lemma represents_nil : represents 0 [].
Proof. intros s. rewrite N.bits_0. split; [discriminate|]. intros (q & [] & _). Qed.

Lemma represents_bound mask rem : incl rem g -> represents mask rem -> mask < 2 ^ (Z.to_N width + 1).
Proof.
  intros Hi Hr. destruct (N.eq_dec mask 0) as [->|ne].
  - apply N.neq_0_lt_0. apply N.pow_nonzero. lia.
  - apply N.log2_lt_pow2; [lia|].
    pose proof (N.bit_log2 mask ne) as B. apply Hr in B. destruct B as (q & Hq & <-).
    pose proof (pos_le q (Hi q Hq)). lia.
Qed.

(** ** The loop over what arrived *)

Definition eqd := list_eq_dec N.eq_dec.
Definition without (p : list N) (l : list (list N)) :=
  filter (fun q => if eqd p q then false else true) l.

Lemma missing_cons p rcv l : missing l (p :: rcv) = missing (without p l) rcv.
Proof.
  unfold missing, without. induction l as [|q l IH]; [reflexivity|]. cbn [filter existsb].
  unfold same_packet at 1. destruct (list_eq_dec N.eq_dec q p) as [->|ne].
  - cbn [orb negb]. destruct (eqd p p); [|congruence]. exact IH.
  - cbn [orb]. destruct (eqd p q); [congruence|]. cbn [filter]. destruct (negb (existsb (same_packet q) rcv)).
    + now f_equal.
    + exact IH.
Qed.

Lemma without_id p l : ~ In p l -> without p l = l.
Proof.
  unfold without. induction l as [|q l IH]; intros H; [reflexivity|]. cbn [filter].
  destruct (eqd p q) as [->|]; [elim H; now left|]. f_equal. apply IH. intros K. apply H. now right.
Qed.

Lemma without_in p q l : In q (without p l) <-> In q l /\ q <> p.
Proof.
  unfold without. rewrite filter_In. destruct (eqd p q); split; intros [H K]; split; auto; congruence.
Qed.

Variable pt : N.
Variable L : nat.
Variable f : list N -> list N -> list N.
Variable h : list N -> list N.
Hypothesis f_len : forall acc p, In p g -> length acc = L -> length (f acc p) = L.
Hypothesis f_at : forall acc p i, In p g -> length acc = L -> at_ i (f acc p) = N.lxor (at_ i acc) (at_ i (h p)).
Hypothesis g_media : Forall (fun p => payload_type p <> pt) g.

Lemma scan_ok : forall rcv mask acc rem,
  (forall p, In p rcv -> payload_type p = pt /\ ~ In p g \/ In p g \/
     (4 <= length p)%nat /\ sequence p < base) ->
  incl rem g -> NoDup rem -> represents mask rem -> length acc = L ->
  exists mask' acc', scan pt base width f rcv mask acc = Some (mask', acc') /\
    represents mask' (missing rem rcv) /\ length acc' = L /\
    forall i, N.lxor (at_ i acc') (xsum (fun p => at_ i (h p)) (missing rem rcv)) =
              N.lxor (at_ i acc) (xsum (fun p => at_ i (h p)) rem).
Proof.
  induction rcv as [|p rcv IH]; intros mask acc rem Hp Hi Hn Hr Hl; cbn [scan].
  - assert (E : missing rem [] = rem).
    { unfold missing. clear. induction rem as [|x r IHr]; [reflexivity|]. cbn [filter existsb negb] in *. now rewrite IHr. }
    rewrite E. exists mask, acc. auto.
  - rewrite is_fec_type, missing_cons.
    assert (Hp' : forall q, In q rcv -> payload_type q = pt /\ ~ In q g \/ In q g \/
       (4 <= length q)%nat /\ sequence q < base) by (intros; apply Hp; now right).
    destruct (Hp p (or_introl eq_refl)) as [[T Ng]|[Hg|[Hlp Hs]]].
    + rewrite (proj2 (N.eqb_eq _ _) T). rewrite without_id by auto. now apply IH.
    + pose proof (proj1 (Forall_forall _ _) g_media p Hg) as T. cbn beta in T.
      rewrite (proj2 (N.eqb_neq _ _) T).
      pose proof (proj1 (Forall_forall _ _) g_len p Hg) as Lp. cbn beta in Lp.
      pose proof (proj1 (Forall_forall _ _) g_range p Hg) as R. cbn beta in R.
      destruct (N.ltb_spec (seq_of p) base) as [K|_]; [rewrite seq_of_sequence in K by lia; lia|].
      rewrite (pos_bit p Hg). cbn [obind].
      assert (B : N.land mask (2 ^ pos p) = 0 <-> ~ In p rem).
      { split.
        - intros Z Hin. assert (X : N.testbit (N.land mask (2 ^ pos p)) (pos p) = true).
          { rewrite N.land_spec, testbit_pow, N.eqb_refl, andb_true_r. apply Hr. eauto. }
          rewrite Z, N.bits_0 in X. discriminate.
        - intros Nin. apply N.bits_inj. intros s. rewrite N.land_spec, testbit_pow, N.bits_0.
          destruct (N.eqb_spec (pos p) s) as [<-|]; [|apply andb_false_r].
          rewrite andb_true_r. destruct (N.testbit mask (pos p)) eqn:E; [|reflexivity].
          apply Hr in E. destruct E as (q & Hq & Eq). elim Nin.
          now rewrite <- (pos_inj q p (Hi q Hq) Hg Eq). }
      destruct (N.eqb_spec (N.land mask (2 ^ pos p)) 0) as [Z|Z].
      * rewrite without_id by (now apply B). now apply IH.
      * destruct (in_dec eqd p rem) as [Hin|Nin]; [|elim Z; now apply B].
        destruct (IH (N.ldiff mask (2 ^ pos p)) (f acc p) (without p rem)) as (m & a & E & R' & L' & X); auto.
        -- intros q Hq. apply without_in in Hq. apply Hi. tauto.
        -- now apply NoDup_filter.
        -- intros s. rewrite N.ldiff_spec, testbit_pow, andb_true_iff, (Hr s), negb_true_iff, N.eqb_neq. split.
           ++ intros ((q & Hq & Eq) & Hne). exists q. split; auto. apply without_in. split; auto. congruence.
           ++ intros (q & Hq & Eq). apply without_in in Hq. destruct Hq as [Hq Hne]. split; [eauto|].
              intros E2. apply Hne. apply (pos_inj q p); auto. congruence.
        -- exists m, a. split; auto. split; auto. split; auto. intros i. rewrite (X i), f_at by auto.
           rewrite (xsum_remove eqd (fun p0 => at_ i (h p0)) p rem Hn Hin).
           rewrite N.lxor_assoc. reflexivity.
    + assert (Ng : ~ In p g).
      { intros Hg. pose proof (proj1 (Forall_forall _ _) g_range p Hg) as R. cbn beta in R. lia. }
      rewrite without_id by (intros K; apply Ng; auto).
      destruct (payload_type p =? pt); [now apply IH|].
      rewrite seq_of_sequence by lia. destruct (N.ltb_spec (sequence p) base); [|lia]. now apply IH.
Qed.

End Group.

(** ** The last bit of a mask *)

Lemma low_bit_ok : forall fuel mask i t,
  N.testbit mask t = true -> (forall s, s < t -> N.testbit mask s = false) -> t < N.of_nat fuel ->
  low_bit fuel mask i = (i + t, mask / 2 ^ (t + 1)).
Proof.
  induction fuel as [|fuel IH]; intros mask i t Ht Hlow Hf; [lia|]. cbn [low_bit].
  destruct (N.eqb_spec mask 0) as [->|ne]; [rewrite N.bits_0 in Ht; discriminate|].
  rewrite <- N.bit0_odd. destruct (N.eq_dec t 0) as [->|nt].
  - rewrite Ht. rewrite N.add_0_r. reflexivity.
  - rewrite (Hlow 0) by lia. rewrite (IH (mask / 2) (i + 1) (t - 1)).
    + f_equal; [lia|]. rewrite N.div_div by (try apply N.pow_nonzero; lia).
      f_equal. replace (t - 1 + 1) with t by lia. rewrite N.add_1_r, N.pow_succ_r'. reflexivity.
    + rewrite <- N.div2_div, N.div2_spec, N.shiftr_spec'. replace (t - 1 + 1) with t by lia. exact Ht.
    + intros s Hs. rewrite <- N.div2_div, N.div2_spec, N.shiftr_spec'. apply Hlow. lia.
    + lia.
Qed.

Lemma lowest_bit : forall mask, mask <> 0 -> exists t, N.testbit mask t = true /\ forall s, s < t -> N.testbit mask s = false.
Proof.
  intros mask ne.
  assert (G : forall n, (exists t, N.testbit mask t = true /\ forall s, s < t -> N.testbit mask s = false)
                        \/ forall s, s < N.of_nat n -> N.testbit mask s = false).
  { induction n as [|n [IH|IH]]; [right; intros; lia|now left|].
    destruct (N.testbit mask (N.of_nat n)) eqn:E.
    - left. exists (N.of_nat n). split; auto.
    - right. intros s Hs. destruct (N.eq_dec s (N.of_nat n)) as [->|]; auto. apply IH. lia. }
  destruct (G (S (N.to_nat (N.log2 mask)))) as [?|H]; auto.
  specialize (H (N.log2 mask)). rewrite N.bit_log2 in H by auto. discriminate H. lia.
Qed.

(** ** The FEC packet of a group *)

Lemma nth0_hd (g : list (list N)) : nth 0 g [] = hd [] g.
Proof. destruct g; reflexivity. Qed.

Definition long_group (g : list (list N)) : bool := Nat.ltb 16 (length g).
Definition gwidth (g : list (list N)) : Z := if long_group g then 47%Z else 15%Z.
Definition gk (g : list (list N)) : nat := if long_group g then 6 else 2.
Definition gbase (g : list (list N)) : N := sequence (hd [] g).
Definition glast (g : list (list N)) : list N := nth (length g - 1) g [].

Lemma fold_length {A} (h : A -> list N) n : forall g t,
  (forall p, In p g -> length (h p) = n) -> length t = n ->
  length (fold_left (fun t p => fec_xor (h p) t) g t) = n.
Proof.
  induction g as [|p g IH]; intros t H Ht; cbn [fold_left]; auto.
  apply IH; [intros; apply H; now right|]. rewrite fec_xor_length, (H p) by (now left). lia.
Qed.

Lemma header_bits_length p : (12 <= length p)%nat -> length (header_bits p) = 10%nat.
Proof. intros H. unfold header_bits. rewrite app_length, firstn_length, put_be_length. lia. Qed.

Lemma header_bits_at p i : (12 <= length p)%nat -> (i < 8)%nat -> at_ i (header_bits p) = at_ i p.
Proof.
  intros H Hi. unfold header_bits. rewrite app_nth1 by (rewrite firstn_length; lia).
  now apply nth_firstn_n.
Qed.

Lemma header_bits_bytes p : bytes p -> bytes (header_bits p).
Proof.
  intros H. unfold header_bits. apply Forall_app. split.
  - exact (slice_bytes 0 8 p H).
  - rewrite put_be_bytes. apply be_bytes_bytes.
Qed.

Lemma zeros_at i n : at_ i (repeat 0 n) = 0.
Proof.
  destruct (Nat.lt_ge_cases i n) as [L|L].
  - revert i L. induction n as [|n IH]; intros i L; [lia|]. destruct i; [reflexivity|]. cbn [repeat nth]. apply IH. lia.
  - apply nth_overflow. now rewrite repeat_length.
Qed.

Lemma xor_all_length : forall g t,
  (length t <= length (fold_left (fun t p => fec_xor p t) g t))%nat /\
  (forall p, In p g -> (length p <= length (fold_left (fun t p => fec_xor p t) g t))%nat) /\
  forall n, (length t <= n)%nat -> (forall p, In p g -> (length p <= n)%nat) ->
    (length (fold_left (fun t p => fec_xor p t) g t) <= n)%nat.
Proof.
  induction g as [|q g IH]; intros t; cbn [fold_left].
  - split; [lia|]. split; [intros p []|auto].
  - destruct (IH (fec_xor q t)) as (A & B & C). rewrite fec_xor_length in A, C. split; [lia|]. split.
    + intros p [->|Hp]; [lia|auto].
    + intros n Ht Hn. apply C; [|intros; apply Hn; now right].
      pose proof (Hn q (or_introl eq_refl)). lia.
Qed.

Section Protected.

Variable pt fseq : N.
Variable g : list (list N).
Hypothesis pt_ok : pt < 128.
Hypothesis G : protected_group pt g.

Local Notation base := (gbase g).
Local Notation width := (gwidth g).
Local Notation k := (gk g).

Lemma g_nonempty : g <> [].
Proof. destruct G as ([H _] & _). intros E. rewrite E in H. cbn in H. lia. Qed.

Lemma g_rtp p : In p g -> bytes p /\ (12 <= length p <= 1442)%nat /\ version p = 2.
Proof. destruct G as (_ & H & _). rewrite Forall_forall in H. apply H. Qed.

Lemma hd_in : In (hd [] g) g.
Proof. pose proof g_nonempty as N. clear - N. destruct g; [congruence|now left]. Qed.

Lemma last_in : In (glast g) g.
Proof. apply nth_In. destruct G as ([H _] & _). clear - H. lia. Qed.

Lemma gl_len : Forall (fun p => (12 <= length p)%nat) g.
Proof. apply Forall_forall. intros p Hp. destruct (g_rtp p Hp) as (_ & H & _). lia. Qed.

Lemma gl_seq : NoDup (map sequence g).
Proof. apply G. Qed.

Lemma gl_nodup : NoDup g.
Proof. apply (NoDup_map_inv sequence). apply gl_seq. Qed.

Lemma gl_media : Forall (fun p => payload_type p <> pt) g.
Proof. apply G. Qed.

Lemma gl_range : Forall (fun p => base <= sequence p /\ (Z.of_N (sequence p) <= Z.of_N base + width)%Z) g.
Proof.
  destruct G as (_ & _ & _ & _ & _ & H). cbn zeta in H.
  eapply Forall_impl; [|exact H]. cbn beta. intros p Hp. unfold gbase, gwidth, long_group.
  destruct (Nat.leb_spec (length g) 16), (Nat.ltb_spec 16 (length g)); lia.
Qed.

Lemma width_ok : (0 <= width < 64)%Z.
Proof. unfold gwidth. destruct (long_group g); lia. Qed.

Lemma gl_base : seq_of (nth 0 g []) = base.
Proof.
  rewrite nth0_hd. apply seq_of_sequence. destruct (g_rtp _ hd_in) as (_ & H & _). lia.
Qed.

(** The pieces. *)
Let hret := fold_left (fun t p => fec_xor (header_bits p) t) g (repeat 0 10).
Let ret := xor_all g.

Lemma hret_at i : at_ i hret = xsum (fun p => at_ i (header_bits p)) g.
Proof. unfold hret. rewrite xsum_fold, zeros_at. apply N.lxor_0_l. Qed.

Lemma hret_length : length hret = 10%nat.
Proof.
  apply fold_length; [|reflexivity]. intros p Hp. apply header_bits_length.
  destruct (g_rtp p Hp) as (_ & H & _). lia.
Qed.

Lemma hret_byte i : at_ i hret < 256.
Proof.
  rewrite hret_at. apply xsum_byte. apply Forall_forall. intros p Hp. apply at_byte.
  apply header_bits_bytes. now apply g_rtp.
Qed.

Lemma ret_at i : at_ i ret = xsum (fun p => at_ i p) g.
Proof.
  unfold ret, xor_all. rewrite (xsum_fold (fun p => p)).
  replace (at_ i [0]) with 0 by (destruct i as [|[|]]; reflexivity). apply N.lxor_0_l.
Qed.

Lemma ret_length : (12 <= length ret <= 1442)%nat /\ forall p, In p g -> (length p <= length ret)%nat.
Proof.
  destruct (xor_all_length g [0]) as (A & B & C). fold (xor_all g) in *. fold ret in A, B, C. split; [split|exact B].
  - destruct (g_rtp _ hd_in) as (_ & H & _). specialize (B _ hd_in). lia.
  - apply C; [cbn; lia|]. intros p Hp. destruct (g_rtp p Hp) as (_ & H & _). lia.
Qed.

Lemma h_length : length (fec_header g) = 10%nat.
Proof.
  unfold fec_header. fold hret. cbn [length]. rewrite app_length, !slice_length; [reflexivity| |].
  - rewrite hret_length. lia.
  - rewrite nth0_hd. destruct (g_rtp _ hd_in) as (_ & H & _). lia.
Qed.

Lemma h_at1 : at_ 1 (fec_header g) = at_ 1 hret.
Proof. reflexivity. Qed.

Lemma hd_slice_length : length (slice 2 2 (nth 0 g [])) = 2%nat.
Proof. rewrite nth0_hd. destruct (g_rtp _ hd_in) as (_ & H & _). apply slice_length. lia. Qed.

Lemma h_at i : (4 <= i < 10)%nat -> at_ i (fec_header g) = at_ i hret.
Proof.
  intros Hi. unfold fec_header. fold hret.
  destruct i as [|[|j]]; [lia|lia|]. cbn [nth].
  rewrite app_nth2 by (rewrite hd_slice_length; lia). rewrite hd_slice_length.
  rewrite slice_at by lia. f_equal; lia.
Qed.

Lemma h_base : slice 2 2 (fec_header g) = slice 2 2 (nth 0 g []).
Proof.
  unfold fec_header.
  lazymatch goal with |- slice 2 2 (?x :: ?y :: ?r) = _ => change (slice 2 2 (x :: y :: r)) with (slice 0 2 r) end.
  apply slice_exact. now rewrite hd_slice_length.
Qed.

Lemma h_flag : negb (N.land (at_ 0 (fec_header g)) 0x40 =? 0) = long_group g.
Proof.
  unfold fec_header. fold hret. cbn [nth]. unfold byte_at. fold (long_group g).
  pose proof (hret_byte 0) as B. revert B. generalize (at_ 0 hret). intros b B.
  assert (S : forallb (fun b => negb (N.land (N.lor (N.land b 0x3f) 0x40) 0x40 =? 0) &&
     (N.land (N.land b 0x3f) 0x40 =? 0)) (nrange 256) = true) by (vm_compute; reflexivity).
  pose proof (sweep1 256 _ S b B) as K. cbn beta in K. apply andb_prop in K. destruct K as [K1 K2].
  destruct (long_group g); [exact K1|]. now rewrite K2.
Qed.

Lemma h_low : N.land (at_ 0 (fec_header g)) 0x3f = N.land (at_ 0 hret) 0x3f.
Proof.
  unfold fec_header. fold hret. cbn [nth]. unfold byte_at. fold (long_group g).
  apply N.bits_inj. intros s.
  destruct (long_group g); rewrite !N.land_spec, ?N.lor_spec, ?N.land_spec.
  - change 0x3f with (N.ones 6). change 0x40 with (2 ^ 6). rewrite N.pow2_bits_eqb.
    destruct (N.lt_ge_cases s 6).
    + rewrite N.ones_spec_low by auto. destruct (N.eqb_spec 6 s); [lia|].
      now rewrite !andb_true_r, orb_false_r.
    + rewrite N.ones_spec_high by auto. now rewrite !andb_false_r.
  - rewrite <- andb_assoc. f_equal. apply andb_diag.
Qed.

Lemma body_shape : exists m, represents base width m g /\ m < 256 ^ N.of_nat k /\
  fec_body g = Some (put_be 2 (N.of_nat (length ret)) ++ put_be k m ++ skipn 12 ret).
Proof.
  destruct (make_mask_ok base width g width_ok gl_len gl_range g 0 []) as (m & E & R).
  { intros x; auto. } { apply represents_nil. }
  cbn [app] in R. exists m. split; auto. split.
  - pose proof (represents_bound base width g gl_range m g (fun x H => H) R) as B.
    unfold gwidth in B. unfold gk. destruct (long_group g); exact B.
  - unfold fec_body. rewrite gl_base. fold ret.
    replace (seq_of (nth (length g - 1) g [])) with (sequence (glast g)).
    2:{ symmetry. apply (seq_of_sequence (glast g)). destruct (g_rtp _ last_in) as (_ & H & _). clear - H. lia. }
    pose proof (proj1 (Forall_forall _ _) gl_range _ last_in) as LR. cbn beta in LR.
    fold (long_group g). unfold gwidth, gk in *. destruct (long_group g).
    + cbn [orb]. rewrite E. reflexivity.
    + cbn [orb]. unfold dist. destruct (Z.ltb_spec 16 (Z.of_N (sequence (glast g)) - Z.of_N base)); [lia|].
      rewrite E. reflexivity.
Qed.

Definition fec_shape (m : N) (f : list N) : Prop :=
  exists first pad, (first = 128 \/ first = 160) /\ (length pad <= 3)%nat /\ bytes pad /\
    f = (first :: pt :: put_be 2 fseq ++ slice 4 8 (glast g)) ++ fec_header g ++
        put_be 2 (N.of_nat (length ret)) ++ put_be k m ++ skipn 12 ret ++ pad.

Lemma packet_shape : exists m f, represents base width m g /\ m < 256 ^ N.of_nat k /\
  fec_packet fseq pt g = Some f /\ fec_shape m f.
Proof.
  destruct body_shape as (m & R & B & E). exists m. eexists. split; [exact R|]. split; [exact B|].
  split; [unfold fec_packet; rewrite E; cbn [obind]; reflexivity|].
  set (md := Nat.modulo _ 4). assert (Hm : (md < 4)%nat) by (apply Nat.mod_upper_bound; lia). clearbody md.
  exists (if Nat.eqb md 0 then 0x80 else N.lor 0x80 0x20), (if Nat.eqb md 0 then [] else repeat 0 (md - 1) ++ [N.of_nat md]).
  split; [destruct (Nat.eqb md 0); auto|]. split; [|split].
  - destruct (Nat.eqb_spec md 0); [cbn; lia|]. rewrite app_length, repeat_length. cbn [length]. lia.
  - destruct (Nat.eqb_spec md 0); [constructor|]. apply Forall_app. split.
    + apply Forall_forall. intros x Hx. apply repeat_spec in Hx. subst. reflexivity.
    + constructor; [unfold is_byte; lia|constructor].
  - cbn [app]. unfold glast. now rewrite <- !app_assoc.
Qed.

Section Shape.

Variable m : N.
Variable f : list N.
Hypothesis SH : fec_shape m f.
Hypothesis M : represents base width m g.
Hypothesis MB : m < 256 ^ N.of_nat k.

Lemma front_length first : length (first :: pt :: put_be 2 fseq ++ slice 4 8 (glast g)) = 12%nat.
Proof.
  cbn [length]. rewrite app_length, put_be_length, slice_length; [reflexivity|].
  destruct (g_rtp _ last_in) as (_ & H & _). clear - H. lia.
Qed.

Lemma f_length : (24 + k + (length ret - 12) <= length f <= 24 + k + (length ret - 12) + 3)%nat.
Proof.
  destruct SH as (first & pad & _ & P & _ & ->).
  rewrite app_length, front_length, app_length, h_length, !app_length, !put_be_length, skipn_length.
  pose proof ret_length. lia.
Qed.

Lemma f_fits : (26 <= length f <= 1472)%nat /\ (long_group g = true -> (30 <= length f)%nat).
Proof.
  pose proof f_length as F. pose proof ret_length as [R _]. unfold gk in F. destruct (long_group g); (split; [lia|]); intros Q; [lia|discriminate Q].
Qed.

Lemma f_type : payload_type f = pt.
Proof.
  destruct SH as (first & pad & _ & _ & _ & ->). unfold payload_type, octet. cbn [app nth].
  now apply N.mod_small.
Qed.

Lemma f_header : slice 12 10 f = fec_header g.
Proof.
  destruct SH as (first & pad & _ & _ & _ & ->). rewrite slice_app2; rewrite front_length; [|lia].
  apply slice_exact. now rewrite h_length.
Qed.

Lemma f_flag : info_long f = long_group g.
Proof.
  rewrite <- h_flag. unfold info_long, byte_at. rewrite <- f_header, slice_at by lia. reflexivity.
Qed.

Lemma f_slice2 off n : (off + n <= 10)%nat -> slice (12 + off) n f = slice off n (fec_header g).
Proof.
  intros H. rewrite <- f_header. pose proof f_fits as [F _]. apply list_at.
  - rewrite !slice_length; rewrite ?slice_length; lia.
  - intros i Hi. rewrite slice_length in Hi by lia. rewrite !slice_at by lia. f_equal; lia.
Qed.

Lemma f_base : info_base f = base.
Proof.
  unfold info_base. change 14%nat with (12 + 2)%nat. rewrite (f_slice2 2 2) by lia. rewrite h_base.
  change (seq_of (nth 0 g []) = base). apply gl_base.
Qed.

Lemma f_ssrc : info_ssrc f = get_be (slice 8 4 (glast g)).
Proof.
  unfold info_ssrc. destruct SH as (first & pad & _ & _ & _ & ->).
  rewrite slice_app1 by (rewrite front_length; lia).
  change (first :: pt :: put_be 2 fseq ++ slice 4 8 (glast g)) with ((first :: pt :: put_be 2 fseq) ++ slice 4 8 (glast g)).
  rewrite slice_app2 by (cbn [length]; rewrite put_be_length; lia). cbn [length]. rewrite put_be_length.
  f_equal. destruct (g_rtp _ last_in) as (_ & H & _).
  apply list_at; rewrite !slice_length; rewrite ?slice_length; try lia.
  intros i Hi. rewrite !slice_at by lia. f_equal; lia.
Qed.

Lemma f_back : exists pad, skipn 22 f = put_be 2 (N.of_nat (length ret)) ++ put_be k m ++ skipn 12 ret ++ pad.
Proof.
  destruct SH as (first & pad & _ & _ & _ & ->). exists pad.
  rewrite app_assoc, skipn_app, skipn_all2 by (rewrite app_length, front_length, h_length; lia).
  rewrite app_length, front_length, h_length. reflexivity.
Qed.

Lemma slice_skip a b n (l : list N) : slice (a + b) n l = slice b n (skipn a l).
Proof. unfold slice. f_equal. rewrite <- (firstn_skipn a l) at 1.
  revert l. induction a as [|a IH]; intros l; [reflexivity|]. destruct l; [cbn [skipn firstn app]; now rewrite !skipn_nil|].
  cbn [skipn firstn app Nat.add]. apply IH.
Qed.

Lemma f_plen : N.to_nat (get_be (slice 22 2 f)) = length ret.
Proof.
  destruct f_back as (pad & E). change 22%nat with (22 + 0)%nat. rewrite slice_skip, E.
  rewrite slice_exact by (now rewrite put_be_length). rewrite get_put; [lia|].
  pose proof ret_length as [R _]. change (256 ^ N.of_nat 2) with 65536. lia.
Qed.

Lemma f_mask : info_mask f = m.
Proof.
  unfold info_mask. rewrite f_flag. destruct f_back as (pad & E).
  replace (if long_group g then get_be (slice 24 6 f) else get_be (slice 24 2 f)) with (get_be (slice 24 k f))
    by (unfold gk; destruct (long_group g); reflexivity).
  change 24%nat with (22 + 2)%nat. rewrite slice_skip, E.
  rewrite slice_app2 by (rewrite put_be_length; lia). rewrite put_be_length.
  rewrite slice_exact by (now rewrite put_be_length). now apply get_put.
Qed.

Lemma f_body : slice (24 + k) (length ret - 12) f = skipn 12 ret.
Proof.
  destruct f_back as (pad & E). replace (24 + k)%nat with (22 + (2 + k))%nat by lia. rewrite slice_skip, E.
  rewrite slice_app2 by (rewrite put_be_length; lia). rewrite put_be_length.
  rewrite slice_app2 by (rewrite put_be_length; lia). rewrite put_be_length.
  replace (2 + k - 2 - k)%nat with 0%nat by lia. apply slice_exact. now rewrite skipn_length.
Qed.

(** ** Decoding *)

Variable rcv : list (list N).
Hypothesis A : arrives pt g f rcv.

Lemma f_not_g : ~ In f g.
Proof.
  intros H. pose proof (proj1 (Forall_forall _ _) gl_media f H) as T. cbn beta in T. apply T. apply f_type.
Qed.

Lemma rcv_cases p : In p rcv -> payload_type p = pt /\ ~ In p g \/ In p g \/ (4 <= length p)%nat /\ sequence p < base.
Proof.
  intros Hp. destruct (eqd p f) as [->|ne].
  - left. split; [apply f_type|apply f_not_g].
  - destruct A as [_ H]. destruct (H p Hp ne) as [Hg|(L & _ & S)]; [auto|]. right. right. split; [lia|exact S].
Qed.

Lemma rcv_fec : filter (is_fec pt) rcv = [f].
Proof.
  destruct A as [(bef & aft & -> & F) _]. apply Forall_app in F. destruct F as [F1 F2].
  assert (Z : forall l, Forall (fun p => payload_type p <> pt) l -> filter (is_fec pt) l = []).
  { clear. induction 1; [reflexivity|]. cbn [filter]. rewrite is_fec_type.
    destruct (N.eqb_spec (payload_type x) pt); [contradiction|auto]. }
  rewrite filter_app, (Z bef F1). cbn [filter app]. rewrite is_fec_type, f_type, N.eqb_refl, (Z aft F2). reflexivity.
Qed.

Lemma rcv_len : existsb (bad_len pt) rcv = false.
Proof.
  destruct (existsb (bad_len pt) rcv) eqn:E; [|reflexivity]. apply existsb_exists in E.
  destruct E as (p & Hp & B). exfalso. unfold bad_len, RTP_FIXEDLEN, R_MAXLEN in B. destruct (eqd p f) as [->|ne].
  - fold (info_long f) in B. rewrite f_flag in B. pose proof f_fits as [F1 F2].
    destruct (Nat.ltb_spec (length f) 12); [lia|]. destruct (Nat.ltb_spec 1472 (length f)); [lia|].
    destruct (Nat.ltb_spec (length f) 26); [lia|]. cbn [orb] in B.
    destruct (long_group g); [specialize (F2 eq_refl); destruct (Nat.ltb_spec (length f) 30); [lia|]|]; cbn [andb] in B;
      now rewrite andb_false_r in B.
  - destruct A as [(bef & aft & Er & F) H].
    assert (T : payload_type p <> pt).
    { rewrite Forall_forall in F. apply F. rewrite Er in Hp. apply in_app_or in Hp. apply in_or_app.
      destruct Hp as [?|[?|?]]; auto. congruence. }
    assert (Lp : (12 <= length p <= 1472)%nat).
    { destruct (H p Hp ne) as [Hg|(L & _ & _)]; [|exact L]. destruct (g_rtp p Hg) as (_ & L & _). lia. }
    destruct (Nat.ltb_spec (length p) 12); [lia|]. destruct (Nat.ltb_spec 1472 (length p)); [lia|]. cbn [orb] in B.
    rewrite is_fec_type in B. destruct (N.eqb_spec (payload_type p) pt); [contradiction|]. discriminate B.
Qed.

Lemma rcv_nonempty : Nat.eqb (length rcv) 0 = false.
Proof. destruct A as [(bef & aft & -> & _) _]. apply Nat.eqb_neq. rewrite app_length. cbn [length]. lia. Qed.

Let rem := missing g rcv.

Lemma rem_incl : incl rem g.
Proof. intros x Hx. unfold rem, missing in Hx. now apply filter_In in Hx. Qed.

Lemma scan_header : exists mask acc,
  scan pt base width (fun t p => fec_xor t (header_bits p)) rcv m (repeat 0 10) = Some (mask, acc) /\
  represents base width mask rem /\ length acc = 10%nat /\
  forall i, N.lxor (at_ i acc) (xsum (fun p => at_ i (header_bits p)) rem) = at_ i hret.
Proof.
  destruct (scan_ok base width g width_ok gl_len gl_seq gl_range pt 10
    (fun t p => fec_xor t (header_bits p)) header_bits) with (rcv := rcv) (mask := m) (acc := repeat 0 10) (rem := g)
    as (mask & acc & E & R & L & X).
  - intros acc p Hp Ha. rewrite fec_xor_length, Ha, header_bits_length; [reflexivity|].
    destruct (g_rtp p Hp) as (_ & H & _). lia.
  - intros. apply fec_xor_at.
  - apply gl_media.
  - apply rcv_cases.
  - intros x; auto.
  - apply gl_nodup.
  - exact M.
  - reflexivity.
  - exists mask, acc. split; [exact E|]. split; [exact R|]. split; [exact L|]. intros i.
    change rem with (missing g rcv). rewrite X, zeros_at, hret_at. apply N.lxor_0_l.
Qed.

Lemma decode_start : fec_decode pt rcv =
  (h <- decode_header pt f rcv ;;
   match h with
   | HErr => Some None
   | HNothing => Some (Some [])
   | HOk hdr body_len => b <- decode_body pt f rcv body_len ;; Some (Some [hdr ++ b])
   end).
Proof. unfold fec_decode. rewrite rcv_nonempty, rcv_len, rcv_fec. reflexivity. Qed.

Lemma f_width : (if info_long f then 47%Z else 15%Z) = width.
Proof. rewrite f_flag. reflexivity. Qed.

Lemma decode_none : rem = [] -> fec_decode pt rcv = Some (Some []).
Proof.
  intros E0. rewrite decode_start. unfold decode_header. rewrite f_width, f_base, f_mask.
  destruct scan_header as (mask & acc & E & R & _). rewrite E. cbn [obind fst].
  rewrite E0 in R. assert (Z : mask = 0).
  { apply N.bits_inj. intros s. rewrite N.bits_0. destruct (N.testbit mask s) eqn:T; [|reflexivity].
    apply R in T. destruct T as (q & [] & _). }
  rewrite Z. reflexivity.
Qed.

Lemma decode_many p q r : rem = p :: q :: r -> fec_decode pt rcv = Some None.
Proof.
  intros E0. rewrite decode_start. unfold decode_header. rewrite f_width, f_base, f_mask.
  destruct scan_header as (mask & acc & E & R & _). rewrite E. cbn [obind fst].
  assert (Hp : In p g) by (apply rem_incl; rewrite E0; now left).
  assert (Hq : In q g) by (apply rem_incl; rewrite E0; right; now left).
  assert (Tp : N.testbit mask (pos base width p) = true).
  { apply R. exists p. rewrite E0. split; [now left|reflexivity]. }
  assert (Tq : N.testbit mask (pos base width q) = true).
  { apply R. exists q. rewrite E0. split; [right; now left|reflexivity]. }
  assert (ne : pos base width p <> pos base width q).
  { intros K. pose proof (pos_inj base width g gl_seq gl_range p q Hp Hq K) as Epq.
    assert (ND : NoDup rem) by (unfold rem, missing; apply NoDup_filter; apply gl_nodup).
    rewrite E0 in ND. inversion ND; subst. apply H1. now left. }
  destruct (N.eqb_spec mask 0) as [Z|Z]; [rewrite Z, N.bits_0 in Tp; discriminate|].
  destruct (lowest_bit mask Z) as (t & Tt & Tl).
  assert (Lt : t <= pos base width p /\ t <= pos base width q).
  { split; apply N.le_ngt; intros K; apply Tl in K; congruence. }
  rewrite (low_bit_ok 64 mask 0 t Tt Tl).
  - cbn [fst snd]. destruct (N.eqb_spec (mask / 2 ^ (t + 1)) 0) as [D|D]; [|reflexivity].
    exfalso. assert (K : exists s, t < s /\ N.testbit mask s = true).
    { destruct (N.eq_dec t (pos base width p)); [exists (pos base width q)|exists (pos base width p)]; split; auto; lia. }
    destruct K as (s & Hs & Ts). rewrite <- N.shiftr_div_pow2 in D.
    assert (K : N.testbit (N.shiftr mask (t + 1)) (s - (t + 1)) = true).
    { rewrite N.shiftr_spec'. replace (s - (t + 1) + (t + 1)) with s by lia. exact Ts. }
    rewrite D, N.bits_0 in K. discriminate.
  - pose proof (pos_le base width g gl_range p Hp). pose proof width_ok. change (N.of_nat 64) with 64. lia.
Qed.

Lemma top_bits b : b < 256 -> b / 64 = 2 -> N.lor (N.land b 0x3f) 0x80 = b.
Proof.
  intros B V.
  assert (S : forallb (fun b => negb (b / 64 =? 2) || (N.lor (N.land b 0x3f) 0x80 =? b)) (nrange 256) = true)
    by (vm_compute; reflexivity).
  pose proof (sweep1 256 _ S b B) as K. cbn beta in K. rewrite V in K. cbn [N.eqb Pos.eqb negb orb] in K.
  now apply N.eqb_eq in K.
Qed.

Lemma decode_body_one p : rem = [p] -> decode_body pt f rcv (N.of_nat (length p - 12)) = Some (skipn 12 p).
Proof.
  intros E0. assert (Hp : In p g) by (apply rem_incl; rewrite E0; now left).
  destruct (g_rtp p Hp) as (_ & Lp & _). pose proof ret_length as [RL RM]. pose proof (RM p Hp) as Lpr.
  unfold decode_body. rewrite f_plen, f_width, f_base, f_mask.
  assert (EK : (if info_long f then 30%nat else 26%nat) = (24 + k)%nat) by (rewrite f_flag; unfold gk; destruct (long_group g); reflexivity).
  rewrite EK. unfold RTP_FIXEDLEN, R_MAXLEN.
  assert (ST : (if Nat.ltb (24 + k) (length f) then
              if Nat.leb 12 (length ret) && Nat.leb (length ret) 1472
                 && Nat.leb (24 + k + (length ret - 12)) (length f)
              then Some (repeat 0 12 ++ slice (24 + k) (length ret - 12) f)
              else None
            else if Nat.leb (length ret) 1472 then Some (repeat 0 (length ret)) else None)
            = Some (repeat 0 12 ++ skipn 12 ret)).
  { pose proof f_length as FL. destruct (Nat.ltb_spec (24 + k) (length f)).
    - destruct (Nat.leb_spec 12 (length ret)); [|lia]. destruct (Nat.leb_spec (length ret) 1472); [|lia].
      destruct (Nat.leb_spec (24 + k + (length ret - 12)) (length f)); [|lia]. cbn [andb]. now rewrite f_body.
    - assert (E12 : length ret = 12%nat) by lia. rewrite E12. change (Nat.leb 12 1472) with true. cbn iota.
      rewrite skipn_all2 by lia. now rewrite app_nil_r. }
  rewrite ST. clear ST. cbn [obind].
  assert (SL : length (repeat 0 12 ++ skipn 12 ret) = length ret).
  { rewrite app_length, repeat_length, skipn_length. lia. }
  destruct (scan_ok base width g width_ok gl_len gl_seq gl_range pt (length ret)
    (fun t p => fec_xor t (if Nat.ltb (length ret) (length p) then firstn (length ret) p else p)) (fun p => p))
    with (rcv := rcv) (mask := m) (acc := repeat 0 12 ++ skipn 12 ret) (rem := g)
    as (mask & acc & E & R & L & X).
  - intros acc q Hq Ha. specialize (RM q Hq). destruct (Nat.ltb_spec (length ret) (length q)); [lia|].
    rewrite fec_xor_length. lia.
  - intros acc q i Hq Ha. specialize (RM q Hq). destruct (Nat.ltb_spec (length ret) (length q)); [lia|]. apply fec_xor_at.
  - apply gl_media.
  - apply rcv_cases.
  - intros x; auto.
  - apply gl_nodup.
  - exact M.
  - exact SL.
  - rewrite E. cbn [obind snd]. rewrite Nat2N.id. rewrite L.
    destruct (Nat.leb_spec (12 + (length p - 12)) (length ret)); [|lia].
    destruct (Nat.leb_spec (12 + (length p - 12)) 1472); [|lia]. cbn [andb]. f_equal.
    apply list_at; [rewrite slice_length, skipn_length by lia; reflexivity|].
    rewrite slice_length by lia. intros i Hi. rewrite slice_at by auto. rewrite nth_skipn_n.
    specialize (X (12 + i)%nat). change (missing g rcv) with rem in X. rewrite E0 in X. cbn [xsum fold_right] in X.
    rewrite N.lxor_0_r in X. rewrite app_nth2 in X by (rewrite repeat_length; lia).
    rewrite repeat_length in X. replace (12 + i - 12)%nat with i in X by lia.
    rewrite nth_skipn_n, ret_at, N.lxor_nilpotent in X. now apply N.lxor_eq in X.
Qed.

Lemma decode_header_one p : rem = [p] ->
  decode_header pt f rcv = Some (HOk (firstn 12 p) (N.of_nat (length p - 12))).
Proof.
  intros E0. assert (Hp : In p g) by (apply rem_incl; rewrite E0; now left).
  destruct (g_rtp p Hp) as (Bp & Lp & Vp).
  unfold decode_header. rewrite f_width, f_base, f_mask.
  destruct scan_header as (mask & acc & E & R & L & X). rewrite E. cbn [obind fst snd].
  rewrite E0 in R, X.
  assert (MK : forall s, N.testbit mask s = (pos base width p =? s)).
  { intros s. apply Bool.eq_iff_eq_true. rewrite (R s), N.eqb_eq. split.
    - intros (q & [->|[]] & K). exact K.
    - intros K. exists p. split; [now left|exact K]. }
  assert (MP : mask = 2 ^ pos base width p).
  { apply N.bits_inj. intros s. now rewrite MK, N.pow2_bits_eqb. }
  pose proof (pos_le base width g gl_range p Hp) as PL. pose proof width_ok as WO.
  destruct (N.eqb_spec mask 0) as [Z|Z].
  { rewrite MP in Z. apply N.pow_nonzero in Z; [destruct Z|lia]. }
  rewrite (low_bit_ok 64 mask 0 (pos base width p)).
  2:{ rewrite MK. apply N.eqb_refl. }
  2:{ intros s Hs. rewrite MK. apply N.eqb_neq. lia. }
  2:{ change (N.of_nat 64) with 64. lia. }
  cbn [fst snd].
  replace (mask / 2 ^ (pos base width p + 1)) with 0.
  2:{ symmetry. apply N.div_small. rewrite MP. apply N.pow_lt_mono_r; lia. }
  cbn [N.eqb negb]. rewrite f_header, N.add_0_l.
  set (res := fec_xor acc (fec_header g)).
  assert (XI : forall i, at_ i acc = N.lxor (at_ i hret) (at_ i (header_bits p))).
  { intros i. rewrite <- (X i). cbn [xsum fold_right]. now rewrite N.lxor_0_r, N.lxor_assoc, N.lxor_nilpotent, N.lxor_0_r. }
  assert (XH : forall i, at_ i (fec_header g) = at_ i hret -> at_ i res = at_ i (header_bits p)).
  { intros i Hi. unfold res. rewrite fec_xor_at, Hi, XI, N.lxor_comm, <- N.lxor_assoc, N.lxor_nilpotent. apply N.lxor_0_l. }
  assert (RL : length res = 10%nat).
  { unfold res. rewrite fec_xor_length, L, h_length. reflexivity. }
  assert (RS : seq_of p = sequence p) by (apply seq_of_sequence; lia).
  pose proof (proj1 (Forall_forall _ _) gl_range p Hp) as RG. cbn beta in RG.
  assert (SQ : (Z.to_N ((width - Z.of_N (pos base width p)) mod 65536) + base) mod 65536 = sequence p).
  { assert (S16 : sequence p < 65536).
    { unfold sequence, octet. pose proof (at_byte 2 p Bp). pose proof (at_byte 3 p Bp). lia. }
    assert (D : (width - Z.of_N (pos base width p) = Z.of_N (sequence p) - Z.of_N base)%Z) by (unfold pos, dist; lia).
    rewrite D. rewrite Z.mod_small by lia. rewrite N.mod_small by lia. lia. }
  rewrite SQ. f_equal. f_equal.
  - assert (B0 : byte_at 0 p < 256) by (apply at_byte; exact Bp).
    assert (E1 : N.lor (N.land (byte_at 0 res) 0x3f) 0x80 = at_ 0 p).
    { rewrite <- (top_bits (at_ 0 p)); [|exact B0|exact Vp]. f_equal.
      unfold res, byte_at. rewrite fec_xor_at.
      assert (DX : forall a b c, N.land (N.lxor a b) c = N.lxor (N.land a c) (N.land b c)).
      { intros. apply N.bits_inj. intros s. rewrite !N.land_spec, !N.lxor_spec, !N.land_spec.
        destruct (N.testbit a s), (N.testbit b s), (N.testbit c s); reflexivity. }
      rewrite DX, h_low, <- DX, XI. rewrite N.lxor_comm, <- N.lxor_assoc, N.lxor_nilpotent, N.lxor_0_l.
      rewrite header_bits_at by lia. reflexivity. }
    rewrite E1.
    assert (E2 : byte_at 1 res = at_ 1 p).
    { unfold byte_at. rewrite (XH 1%nat h_at1). apply header_bits_at; lia. }
    rewrite E2, put_seq by (auto; lia).
    assert (E3 : slice 4 4 res = slice 4 4 p).
    { apply list_at; rewrite !slice_length by lia; [reflexivity|]. intros i Hi. rewrite !slice_at by auto.
      rewrite XH by (apply h_at; lia). apply header_bits_at; lia. }
    rewrite E3, f_ssrc.
    assert (E4 : put_be 4 (get_be (slice 8 4 (glast g))) = slice 8 4 p).
    { destruct (g_rtp _ last_in) as (Bl & Ll & _).
      assert (S1 : length (slice 8 4 (glast g)) = 4%nat) by (apply slice_length; lia).
      rewrite <- S1 at 1. rewrite put_get by (now apply slice_bytes).
      destruct G as (_ & _ & _ & _ & SS & _). specialize (SS _ _ last_in Hp). unfold source, octet in SS.
      pose proof (at_byte 8 p Bp). pose proof (at_byte 9 p Bp). pose proof (at_byte 10 p Bp). pose proof (at_byte 11 p Bp).
      pose proof (at_byte 8 _ Bl). pose proof (at_byte 9 _ Bl). pose proof (at_byte 10 _ Bl). pose proof (at_byte 11 _ Bl).
      apply list_at; rewrite S1; [rewrite slice_length; lia|]. intros i Hi. rewrite !slice_at by auto.
      destruct i as [|[|[|[|]]]]; cbn [Nat.add]; lia. }
    rewrite E4. clear - Lp. apply list_at.
    { cbn [length]. rewrite !app_length, !slice_length, firstn_length by lia. lia. }
    cbn [length]. rewrite !app_length, !slice_length by lia. intros i Hi. rewrite nth_firstn_n by lia.
    destruct i as [|[|i]]; [reflexivity|reflexivity|]. cbn [nth].
    destruct (Nat.lt_ge_cases i 2).
    { rewrite app_nth1 by (rewrite slice_length; lia). rewrite slice_at by auto. reflexivity. }
    rewrite app_nth2 by (rewrite slice_length; lia). rewrite slice_length by lia.
    destruct (Nat.lt_ge_cases i 6).
    { rewrite app_nth1 by (rewrite slice_length; lia). rewrite slice_at by lia. f_equal; lia. }
    rewrite app_nth2 by (rewrite slice_length; lia). rewrite slice_length by lia.
    rewrite slice_at by lia. f_equal; lia.
  - assert (E5 : slice 8 2 res = put_be 2 (N.of_nat (length p - 12))).
    { apply list_at; rewrite slice_length by lia; [now rewrite put_be_length|]. intros i Hi. rewrite slice_at by auto.
      rewrite XH by (apply h_at; lia). unfold header_bits, RTP_FIXEDLEN.
      rewrite app_nth2 by (rewrite firstn_length; lia). rewrite firstn_length. f_equal; lia. }
    rewrite E5. apply get_put. change (256 ^ N.of_nat 2) with 65536. lia.
Qed.

Lemma decode_one p : rem = [p] -> fec_decode pt rcv = Some (Some [p]).
Proof.
  intros E0. rewrite decode_start, (decode_header_one p E0). cbn [obind].
  rewrite (decode_body_one p E0). cbn [obind]. now rewrite firstn_skipn.
Qed.

End Shape.
End Protected.

(** ** The packets of a stream *)

Lemma bytes_at p : (forall i, at_ i p < 256) -> bytes p.
Proof.
  intros H. apply Forall_forall. intros x Hx. destruct (In_nth p x 0 Hx) as (i & _ & <-). apply H.
Qed.

Lemma skipn_bytes n p : bytes p -> bytes (skipn n p).
Proof.
  intros H. apply bytes_at. intros i. rewrite nth_skipn_n. now apply at_byte.
Qed.

Lemma packet_rtp pt fseq g f : pt < 128 -> fseq < 65536 -> protected_group pt g ->
  fec_packet fseq pt g = Some f ->
  bytes f /\ (26 <= length f <= 1472)%nat /\ version f = 2 /\ payload_type f = pt /\
  sequence f = fseq /\ source f = source (hd [] g) /\ slice 4 4 f = slice 4 4 (glast g).
Proof.
  intros Hpt Hs G E. destruct (packet_shape pt fseq g Hpt G) as (m & f' & R & B & E' & SH).
  rewrite E in E'. injection E' as <-.
  pose proof (f_fits pt fseq g Hpt G m f SH B) as [F _]. pose proof (f_type pt fseq g Hpt m f SH) as T.
  pose proof (f_ssrc pt fseq g Hpt G m f SH B) as SS.
  assert (FR : bytes (fec_header g)).
  { unfold fec_header. constructor.
    - pose proof (hret_byte pt g G 0) as B0. unfold byte_at, is_byte. revert B0. generalize (at_ 0 (fold_left (fun t p => fec_xor (header_bits p) t) g (repeat 0 10))). intros b B0.
      assert (S : forallb (fun b => (N.land b 0x3f <? 256) && (N.lor (N.land b 0x3f) 0x40 <? 256)) (nrange 256) = true) by (vm_compute; reflexivity).
      pose proof (sweep1 256 _ S b B0) as K. cbn beta in K. apply andb_prop in K. destruct K as [K1 K2].
      destruct (Nat.ltb 16 (length g)); [now apply N.ltb_lt in K2|now apply N.ltb_lt in K1].
    - constructor; [apply (hret_byte pt g G)|]. apply Forall_app. split; apply slice_bytes.
      + rewrite nth0_hd. apply (g_rtp pt g G). apply (hd_in pt g Hpt G).
      + apply bytes_at. apply (hret_byte pt g G). }
  assert (RR : bytes (xor_all g)).
  { apply bytes_at. intros i. rewrite ret_at. apply xsum_byte. apply Forall_forall. intros p Hp.
    apply at_byte. now apply (g_rtp pt g G). }
  destruct (g_rtp pt g G _ (last_in pt g G)) as (Bl & Ll & _).
  destruct (g_rtp pt g G _ (hd_in pt g Hpt G)) as (Bh & Lh & _).
  pose proof SH as (first & pad & Hf & _ & Hpad & Ef).
  assert (Bf : bytes f).
  { rewrite Ef. apply Forall_app. split; [|apply Forall_app; split; [exact FR|]].
    - constructor; [unfold is_byte; destruct Hf; subst first; reflexivity|]. constructor; [unfold is_byte; lia|].
      apply Forall_app. split; [rewrite put_be_bytes; apply be_bytes_bytes|now apply slice_bytes].
    - apply Forall_app. split; [rewrite put_be_bytes; apply be_bytes_bytes|].
      apply Forall_app. split; [rewrite put_be_bytes; apply be_bytes_bytes|].
      apply Forall_app. split; [now apply skipn_bytes|exact Hpad]. }
  split; [exact Bf|]. split; [exact F|].
  split.
  { rewrite Ef. unfold version, octet. cbn [app nth]. destruct Hf; subst first; reflexivity. }
  split; [exact T|]. split.
  { rewrite <- seq_of_sequence by lia. unfold seq_of. rewrite Ef.
    assert (FL : slice 2 2 ((first :: pt :: put_be 2 fseq ++ slice 4 8 (glast g)) ++ fec_header g ++
        put_be 2 (N.of_nat (length (xor_all g))) ++ put_be (gk g) m ++ skipn 12 (xor_all g) ++ pad) = put_be 2 fseq).
    { cbn [app]. match goal with |- slice 2 2 (?x :: ?y :: ?r) = _ => change (slice 2 2 (x :: y :: r)) with (slice 0 2 r) end.
      rewrite <- app_assoc. apply slice_exact. now rewrite put_be_length. }
    rewrite FL. apply get_put. exact Hs. }
  split.
  { assert (Q : forall p, (12 <= length p)%nat -> source p = get_be (slice 8 4 p)).
    { intros p Hp. unfold get_be.
      replace (slice 8 4 p) with [at_ 8 p; at_ 9 p; at_ 10 p; at_ 11 p].
      - unfold source, octet. cbn [be_value length].
        change (256 ^ N.of_nat 3) with 16777216. change (256 ^ N.of_nat 2) with 65536.
        change (256 ^ N.of_nat 1) with 256. change (256 ^ N.of_nat 0) with 1. lia.
      - apply list_at; [rewrite slice_length by lia; reflexivity|]. cbn [length]. intros i Hi. rewrite slice_at by auto.
        destruct i as [|[|[|[|]]]]; cbn [nth Nat.add]; try reflexivity; lia. }
    rewrite (Q f) by lia. unfold info_ssrc in SS. rewrite SS, <- Q by lia.
    pose proof G as (_ & _ & _ & _ & HS & _). apply HS; [apply (last_in pt g G)|apply (hd_in pt g Hpt G)]. }
  { rewrite Ef. rewrite slice_app1 by (rewrite (front_length pt fseq g G); lia).
    change (first :: pt :: put_be 2 fseq ++ slice 4 8 (glast g)) with ((first :: pt :: put_be 2 fseq) ++ slice 4 8 (glast g)).
    rewrite slice_app2 by (cbn [length]; rewrite put_be_length; lia). cbn [length]. rewrite put_be_length.
    apply list_at; rewrite !slice_length; rewrite ?slice_length; try lia.
    intros i Hi. rewrite !slice_at by lia. f_equal; lia. }
Qed.

Definition group (m i : nat) (ps : list (list N)) : list (list N) := firstn m (skipn (i * m) ps).

Lemma skipn_add {A} a b (l : list A) : skipn a (skipn b l) = skipn (b + a) l.
Proof.
  revert l. induction b as [|b IH]; intros l; [reflexivity|]. destruct l; [now rewrite !skipn_nil|].
  cbn [skipn Nat.add]. apply IH.
Qed.

Lemma enc_groups_nth m pt : forall fuel fseq ps fs fseq', fseq < 65536 ->
  enc_groups fuel fseq pt ps m = Some (fs, fseq') ->
  fseq' = (fseq + N.of_nat (length fs)) mod 65536 /\ length ps = (length fs * m)%nat /\
  forall i f, nth_error fs i = Some f ->
    fec_packet ((fseq + N.of_nat i) mod 65536) pt (group m i ps) = Some f.
Proof.
  induction fuel as [|fuel IH]; intros fseq ps fs fseq' Hs E; destruct ps as [|p ps]; cbn [enc_groups] in E; try discriminate.
  1,2: injection E as <- <-; split; [cbn; rewrite N.add_0_r, N.mod_small; auto|]; split; [reflexivity|];
     intros i f H; destruct i; discriminate.
  destruct (Nat.ltb_spec (length (p :: ps)) m); [discriminate|].
  destruct (fec_packet fseq pt (firstn m (p :: ps))) as [f0|] eqn:E0; [|discriminate]. cbn [obind] in E.
  destruct (enc_groups fuel ((fseq + 1) mod 65536) pt (skipn m (p :: ps)) m) as [[fs' s']|] eqn:E1; [|discriminate].
  cbn [obind fst snd] in E. injection E as <- <-.
  apply IH in E1; [|apply N.mod_lt; lia]. destruct E1 as (S1 & L1 & N1). rewrite skipn_length in L1. split; [|split].
  - rewrite S1. rewrite N.add_mod_idemp_l by lia. f_equal. cbn [length]. lia.
  - change (length (f0 :: fs')) with (S (length fs')). rewrite Nat.mul_succ_l. lia.
  - intros i f Hi. destruct i as [|i].
    + cbn [nth_error] in Hi. injection Hi as <-. rewrite N.add_0_r, N.mod_small by auto. exact E0.
    + cbn [nth_error] in Hi. apply N1 in Hi. rewrite N.add_mod_idemp_l in Hi by lia.
      unfold group in *. rewrite skipn_add in Hi. rewrite <- Hi. f_equal; f_equal; lia.
Qed.

Lemma enc_groups_total m pt : pt < 128 -> (0 < m)%nat -> forall k fuel fseq ps,
  length ps = (k * m)%nat -> (k <= fuel)%nat -> fseq < 65536 ->
  (forall i, (i < k)%nat -> protected_group pt (group m i ps)) ->
  exists fs fseq', enc_groups fuel fseq pt ps m = Some (fs, fseq').
Proof.
  intros Hpt Hm. induction k as [|k IH]; intros fuel fseq ps Hl Hf Hs Hg.
  - destruct ps; [|discriminate]. exists [], fseq. destruct fuel; reflexivity.
  - destruct fuel as [|fuel]; [lia|].
    assert (NE : ps <> []) by (intros ->; cbn in Hl; lia).
    destruct (packet_shape pt fseq (firstn m ps) Hpt (Hg 0%nat ltac:(lia))) as (_ & f & _ & _ & E & _).
    destruct (IH fuel ((fseq + 1) mod 65536) (skipn m ps)) as (fs & s & E1).
    + rewrite skipn_length. rewrite Nat.mul_succ_l in Hl. lia.
    + lia.
    + apply N.mod_lt. lia.
    + intros i Hi. specialize (Hg (S i) ltac:(lia)). unfold group in *. now rewrite skipn_add.
    + exists (f :: fs), s. destruct ps as [|p ps]; [congruence|]. cbn [enc_groups].
      destruct (Nat.ltb_spec (length (p :: ps)) m); [rewrite Nat.mul_succ_l in Hl; lia|].
      rewrite E. cbn [obind]. rewrite E1. reflexivity.
Qed.

Lemma enc_inv fseq pt ps m fs fseq' : fseq < 65536 ->
  fec_encode fseq pt ps m = Some (Some (fs, fseq')) ->
  fseq' = (fseq + N.of_nat (length fs)) mod 65536 /\ length ps = (length fs * m)%nat /\
  forall i f, nth_error fs i = Some f ->
    fec_packet ((fseq + N.of_nat i) mod 65536) pt (group m i ps) = Some f.
Proof.
  intros Hs E. unfold fec_encode in E.
  destruct (Nat.eqb (length ps) 0 || Nat.ltb 48 m || Nat.eqb m 0); [discriminate|].
  destruct (existsb _ ps); [discriminate|].
  destruct (enc_groups (length ps) fseq pt ps m) as [[a b]|] eqn:E1; [|discriminate].
  cbn [obind] in E. injection E as <- <-. now apply (enc_groups_nth m pt (length ps)).
Qed.

Lemma group_member m k ps p : length ps = (k * m)%nat -> In p ps ->
  exists i, (i < k)%nat /\ In p (group m i ps).
Proof.
  revert ps. induction k as [|k IH]; intros ps Hl Hp.
  - destruct ps; [destruct Hp|discriminate].
  - rewrite <- (firstn_skipn m ps) in Hp. apply in_app_or in Hp. destruct Hp as [Hp|Hp].
    + exists 0%nat. split; [lia|exact Hp].
    + destruct (IH (skipn m ps)) as (i & Hi & Hin).
      * rewrite skipn_length. rewrite Nat.mul_succ_l in Hl. lia.
      * exact Hp.
      * exists (S i). split; [lia|]. unfold group in *. now rewrite skipn_add in Hin.
Qed.

Lemma enc_total fseq pt ps m k : pt < 128 -> (1 <= m <= 48)%nat -> (1 <= k)%nat -> length ps = (k * m)%nat -> fseq < 65536 ->
  (forall i, (i < k)%nat -> protected_group pt (group m i ps)) ->
  exists fs, fec_encode fseq pt ps m = Some (Some (fs, (fseq + N.of_nat k) mod 65536)) /\ length fs = k.
Proof.
  intros Hpt Hm Hk Hl Hs Hg.
  destruct (enc_groups_total m pt Hpt ltac:(lia) k (length ps) fseq ps Hl ltac:(nia) Hs Hg) as (fs & s & E).
  destruct (enc_groups_nth m pt _ _ _ _ _ Hs E) as (-> & L & _).
  assert (EK : length fs = k) by nia.
  exists fs. split; [|exact EK]. unfold fec_encode.
  destruct (Nat.eqb_spec (length ps) 0); [nia|]. destruct (Nat.ltb_spec 48 m); [lia|].
  destruct (Nat.eqb_spec m 0); [lia|]. cbn [orb].
  destruct (existsb _ ps) eqn:X.
  - apply existsb_exists in X. destruct X as (p & Hp & B). destruct (group_member m k ps p Hl Hp) as (i & Hi & Hin).
    destruct (g_rtp pt _ (Hg i Hi) p Hin) as (_ & Lp & _). unfold RTP_FIXEDLEN, G_MAXLEN in B.
    destruct (Nat.ltb_spec (length p) 12); [lia|]. destruct (Nat.ltb_spec 1442 (length p)); [lia|]. discriminate.
  - rewrite E, EK. reflexivity.
Qed.

(** Consecutive sequence numbers make a group. *)
Lemma consecutive_group pt g : (1 <= length g <= 48)%nat -> Forall rtp g ->
  Forall (fun p => payload_type p <> pt) g ->
  (forall p q, In p g -> In q g -> source p = source q) -> consecutive g -> protected_group pt g.
Proof.
  intros Hl Hr Hp Hs Hc. split; [exact Hl|]. split; [exact Hr|]. split; [exact Hp|].
  split; [|split; [exact Hs|]].
  - apply (NoDup_nth (map sequence g) (sequence [])). rewrite map_length. intros i j Hi Hj E.
    rewrite !map_nth in E. rewrite (Hc i Hi), (Hc j Hj) in E. lia.
  - cbn zeta. apply Forall_forall. intros p Hin. destruct (In_nth g p [] Hin) as (i & Hi & <-).
    rewrite (Hc i Hi). destruct (Nat.leb_spec (length g) 16); lia.
Qed.

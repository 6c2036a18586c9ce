(** Key generation. *)
Require Import List Arith NArith ZArith Lia Bool Znumtheory.
Require Import ZifyBool ZifyNat ZifyN.
Require Import Verif.Base Verif.NumProofs Verif.BnModel Verif.BnSpec Verif.BnLimbProofs Verif.BnAddProofs Verif.BnMulProofs Verif.BnShiftProofs Verif.BnProofs
  Verif.BnDivProofs Verif.BnTextModel Verif.BnTextProofs Verif.BnModModel Verif.BnModProofs Verif.BnEulidProofs Verif.BnPrimeModel Verif.BnPrimeSpec Verif.BnPrimeProofs
  Verif.RsaModel Verif.RsaSpec Verif.RsaProofs.
Import ListNotations.
Open Scope N_scope.

Lemma prime_65537 : prime 65537.
Proof. apply (trial_division 65537 (N.to_nat 255)); vm_compute; reflexivity. Qed.

Lemma gcd_prime e m : prime e -> (Z.gcd e m = 1 \/ Z.gcd e m = e)%Z.
Proof.
  intros P. pose proof (prime_ge_2 _ P) as P2. pose proof (Z.gcd_nonneg e m) as N0. pose proof (Z.gcd_divide_l e m) as D.
  apply (prime_divisors _ P) in D. lia.
Qed.

(** The exponent that Euclid gives is an inverse, or one. *)
Lemma euclid_inverse e phi d y : (prime e -> 1 < phi -> e < d -> d * e + y * phi = Z.gcd e phi -> Z.abs d * Z.gcd e phi <= phi -> Z.gcd e phi = 1)%Z.
Proof.
  intros P L Ld E B. pose proof (prime_ge_2 _ P) as P2. destruct (gcd_prime e phi P) as [G|G]; [exact G|exfalso]. rewrite G in *.
  assert (D : (e | phi)%Z) by (rewrite <- G; apply Z.gcd_divide_r). destruct D as [m ->].
  assert (E' : (d + y * m = 1)%Z) by nia. assert (B' : (d <= m)%Z) by nia. assert (X : (m | d - 1)%Z) by (exists (- y)%Z; lia).
  apply Z.divide_pos_le in X; lia.
Qed.

Lemma bn_e_holds : holds bn_e 65537.
Proof. split; [apply wfb_ok; vm_compute; reflexivity|vm_compute; reflexivity]. Qed.

Lemma wf_short b w : wf b -> neg b = false -> mag b < 2 ^ w -> w <= 8192 -> (len b < 257)%nat.
Proof.
  intros W _ M L. apply wf_wfp in W. assert (len b <= 256)%nat; [|lia]. apply len_of_mag; [exact W|].
  rewrite P_pow. eapply N.lt_le_trans; [exact M|]. apply N.pow_le_mono_r; [discriminate|lia].
Qed.

Lemma pred_ok b v : wf b -> value b = Z.of_N v -> 1 <= v -> fits v -> exists r, bn_sub b bn_one = Some r /\ holds r (v - 1).
Proof.
  intros W V L F. destruct (sub_ok b bn_one) as (r & E & Wr & Vr); [apply wf_wfp; exact W|apply wfp_one| |left; apply andb_false_r|].
  - eapply fits_le; [|exact F]. rewrite V, one_value. clear - L. lia.
  - exists r. split; [exact E|]. split; [apply wf_wfp; exact Wr|]. rewrite Vr, V, one_value. clear - L. lia.
Qed.

Lemma bn_mod_ok a b x y : holds a x -> holds b y -> 0 < y -> (len a < 257)%nat -> exists r, bn_mod a b = Some r /\ holds r (x mod y).
Proof.
  intros [Wa Va] [Wb Vb] Y L. destruct (div_value a b Wa Wb) as (r & q & E & Wr & _ & _ & Vr); [rewrite Vb; clear - Y; lia|left; exact L|].
  exists r. unfold bn_mod. rewrite E. cbn [sure obind fst]. split; [reflexivity|]. split; [exact Wr|].
  rewrite Vr, Va, Vb, Z.rem_mod_nonneg by (clear - Y; lia). rewrite N2Z.inj_mod by (clear - Y; lia). reflexivity.
Qed.

Lemma bit_low v i : N.testbit v i = true -> 2 ^ i <= v.
Proof.
  intros T. destruct (N.le_gt_cases (2 ^ i) v) as [L|L]; [exact L|]. exfalso.
  rewrite <- (N.mod_small v (2 ^ i) L), N.mod_pow2_bits_high in T by lia. discriminate.
Qed.

(** A number that came out of the search. *)
Definition tested (width v : N) : Prop := odd_of_width width v /\ exists ds rejected r, draws ds /\ search gen width ds rejected v r.

Lemma generate_once_ok bits ds pub pri ds' : 88 < bits <= 4096 -> draws ds -> generate_once bits ds = Some (Some (Some (pub, pri), ds')) ->
  exists p q n d, tested (bits / 2 + 1) p /\ tested (bits / 2) q /\ n = p * q /\ (holds (k_n pub) n /\ holds (k_p pub) p /\ holds (k_q pub) q) /\ 2 ^ (bits - 1) <= n /\ n < 2 ^ (2 * (bits / 2) + 1) /\
    (65537 * d) mod ((p - 1) * (q - 1)) = 1 /\ draws ds' /\ d <= (p - 1) * (q - 1) /\
    (prime (Z.of_N p) -> prime (Z.of_N q) -> key_for pub n 65537 p q /\ key_for pri n d p q).
Proof.
  intros Hb D E. unfold generate_once in E. rewrite N.shiftr_div_pow2 in E. change (2 ^ 1) with 2 in E.
  set (h := bits / 2) in *. assert (Hh : 44 <= h <= 2048 /\ bits <= 2 * h + 1).
  { unfold h. pose proof (N.div_mod' bits 2). pose proof (N.mod_lt bits 2 ltac:(discriminate)). clear - Hb H H0. lia. }
  destruct (bn_prime (h + 1) ds) as [[[p dp1]|]|] eqn:Ep; [|discriminate|discriminate]. cbn [obind] in E.
  destruct (bn_prime_search _ _ _ _ D Ep) as (_ & Wp & Np & Op & D1 & rj1 & S1).
  destruct (bn_prime h dp1) as [[[q dq1]|]|] eqn:Eq; [|discriminate|discriminate]. cbn [obind] in E.
  destruct (bn_prime_search _ _ _ _ D1 Eq) as (_ & Wq & Nq & Oq & D2 & rj2 & S2).
  pose proof (pos_value p Np) as Vp. pose proof (pos_value q Nq) as Vq. set (vp := mag p) in *. set (vq := mag q) in *.
  destruct (bn_compare p q) as [c|]; [|discriminate]. cbn [obind] in E. destruct (c =? 0)%Z; [discriminate|]. clear c.
  destruct Op as [Bp Opp]. destruct Oq as [Bq Oqq]. replace (h + 1 - 1) with h in Bp by (clear; lia).
  assert (Hpow : 2 ^ h = 2 * 2 ^ (h - 1) /\ 2 ^ (h + 1) = 2 * 2 ^ h).
  { split; [rewrite <- N.pow_succ_r'; f_equal; clear - Hh; lia|rewrite N.pow_add_r; change (2 ^ 1) with 2; clear; lia]. }
  assert (Hbig : 2 ^ 43 <= 2 ^ (h - 1)) by (apply N.pow_le_mono_r; [discriminate|clear - Hh; lia]). change (2 ^ 43) with 8796093022208 in Hbig.
  assert (Hpq : vq < vp) by (clear - Bp Bq; lia).
  assert (Big : 8796093022208 <= vp /\ 8796093022208 <= vq) by (clear - Bp Bq Hbig Hpow; lia).
  assert (Nlt : vp * vq < 2 ^ (2 * h + 1)).
  { replace (2 * h + 1) with ((h + 1) + h) by (clear; lia). rewrite N.pow_add_r. apply N.mul_lt_mono; [apply Bp|apply Bq]. }
  assert (F : forall x, x < 2 ^ (2 * h + 1) -> fits x).
  { intros x Hx. unfold fits. eapply N.lt_le_trans; [exact Hx|]. apply N.pow_le_mono_r; [discriminate|clear - Hh; lia]. }
  assert (Fp : fits vp). { apply F. eapply N.lt_le_trans; [apply Bp|]. apply N.pow_le_mono_r; [discriminate|clear - Hh; lia]. }
  assert (Fq : fits vq). { apply F. eapply N.lt_le_trans; [apply Bq|]. apply N.pow_le_mono_r; [discriminate|clear - Hh; lia]. }
  destruct (mul_wf p q Wp Wq) as (n & En & Wn & Vn); [apply F; exact Nlt|]. rewrite En in E. cbn [obind] in E.
  assert (Hn : value n = Z.of_N (vp * vq)) by (rewrite Vn, Vp, Vq; symmetry; apply N2Z.inj_mul).
  destruct (holds_pos n (vp * vq) (conj Wn Hn)) as (Wn' & Nn & Mn). { clear - Big. nia. }
  rewrite (bit_test_ok n (bits - 1) Wn') in E. cbn [obind] in E. destruct (N.testbit (mag n) (bits - 1)) eqn:Tb; [|discriminate]. cbn [negb] in E.
  apply bit_low in Tb. rewrite Mn in Tb.
  assert (Lp : (len p < 257)%nat). { apply (wf_short p (h + 1) Wp Np); [apply Bp|clear - Hh; lia]. }
  assert (Lq : (len q < 257)%nat). { apply (wf_short q h Wq Nq); [apply Bq|clear - Hh; lia]. }
  destruct (eulid_bound q p Wq Wp ltac:(clear - Vq Big; lia) ltac:(clear - Vp Big; lia) Lq Lp) as (qi & yi & Ei & Wi & _ & Vi & Bi). rewrite Ei in E. cbn [obind] in E.
  rewrite compare_ok in E by (first [apply wf_wfp; assumption|apply wfp_one|left; apply andb_false_r]). cbn [obind] in E.
  destruct (Z.ltb_spec (zcmp (value qi) (value bn_one)) 0) as [|Ci]; [discriminate|]. rewrite one_value in Ci.
  assert (Ci' : (1 <= value qi)%Z) by (unfold zcmp in Ci; destruct (Z.compare_spec (value qi) 1) as [X|X|X]; clear - Ci X; lia). clear Ci.
  destruct (pred_ok p vp Wp Vp ltac:(clear - Big; lia) Fp) as (p1 & E1 & H1). rewrite E1 in E. cbn [obind] in E.
  destruct (pred_ok q vq Wq Vq ltac:(clear - Big; lia) Fq) as (q1 & E2 & H2). rewrite E2 in E. cbn [obind] in E.
  destruct (holds_pos _ _ H1) as (Wp1 & Np1 & Mp1); [clear - Big; lia|]. destruct (holds_pos _ _ H2) as (Wq1 & Nq1 & Mq1); [clear - Big; lia|].
  assert (Fphi : (vp - 1) * (vq - 1) <= vp * vq) by (apply N.mul_le_mono; clear; lia).
  destruct (mul_wf p1 q1 (proj1 H1) (proj1 H2)) as (phi & Eph & Wph & Vph). { rewrite Mp1, Mq1. apply F. clear - Fphi Nlt. lia. } rewrite Eph in E. cbn [obind] in E.
  assert (Hphi : value phi = Z.of_N ((vp - 1) * (vq - 1))) by (rewrite Vph, (proj2 H1), (proj2 H2); symmetry; apply N2Z.inj_mul).
  set (ph := (vp - 1) * (vq - 1)) in *. assert (Bph : 8796093022208 <= ph) by (unfold ph; clear - Big; nia).
  destruct (holds_pos phi ph (conj Wph Hphi)) as (Wph' & Nph & Mph); [clear - Bph; lia|].
  assert (Lph : (len phi < 257)%nat). { apply (wf_short phi (2 * h + 1) Wph Nph); [rewrite Mph; clear - Fphi Nlt; lia|clear - Hh; lia]. }
  destruct bn_e_holds as [We Ve].
  destruct (eulid_bound bn_e phi We Wph) as (d & y & Ed & Wd & _ & Vd & Bd); [rewrite Ve; clear; lia|rewrite Hphi; clear - Bph; lia|unfold bn_e; cbn [len]; clear; lia|exact Lph|].
  rewrite Ed in E. cbn [obind] in E.
  rewrite compare_ok in E by (first [apply wf_wfp; assumption|left; apply andb_false_r]). cbn [obind] in E.
  destruct (Z.leb_spec (zcmp (value d) (value bn_e)) 0) as [|Cd]; [discriminate|].
  assert (Cd' : (65537 < value d)%Z) by (rewrite Ve in Cd; change (Z.of_N 65537) with 65537%Z in Cd; unfold zcmp in Cd; destruct (Z.compare_spec (value d) 65537) as [X|X|X]; clear - Cd X; lia). clear Cd.
  rewrite Ve in Vd, Bd. change (Z.of_N 65537) with 65537%Z in Vd, Bd. rewrite Hphi in Vd, Bd. specialize (Bd ltac:(clear; lia)).
  assert (G : Z.gcd 65537 (Z.of_N ph) = 1%Z). { apply (euclid_inverse _ _ (value d) (value y)); [exact prime_65537|clear - Bph; lia|exact Cd'|exact Vd|exact Bd]. }
  rewrite G in Vd, Bd. set (vd := Z.to_N (value d)) in *. assert (Hd : holds d vd) by (split; [exact Wd|unfold vd; rewrite Z2N.id; [reflexivity|clear - Cd'; lia]]).
  assert (Ldp : vd <= ph). { unfold vd. clear - Bd Cd'. lia. }
  assert (Inv : (65537 * vd) mod ph = 1).
  { apply N2Z.inj. rewrite N2Z.inj_mod, N2Z.inj_mul by (clear - Bph; lia). rewrite <- (proj2 Hd). change (Z.of_N 65537) with 65537%Z. change (Z.of_N 1) with 1%Z.
    replace (65537 * value d)%Z with (1 + (- value y) * Z.of_N ph)%Z by (clear - Vd; lia). rewrite Z.mod_add by (clear - Bph; lia). apply Z.mod_1_l. clear - Bph. lia. }
  assert (Ld : (len d < 257)%nat).
  { destruct (holds_pos _ _ Hd) as (Wd' & Nd & Md); [unfold vd; clear - Cd'; lia|]. apply (wf_short d (2 * h + 1) Wd Nd); [rewrite Md; clear - Ldp Fphi Nlt; lia|clear - Hh; lia]. }
  assert (Le : (len bn_e < 257)%nat) by (unfold bn_e; cbn [len]; clear; lia).
  destruct (bn_mod_ok bn_e p1 65537 (vp - 1) bn_e_holds H1 ltac:(clear - Big; lia) Le) as (ep & X1 & Y1). rewrite X1 in E. cbn [obind] in E.
  destruct (bn_mod_ok bn_e q1 65537 (vq - 1) bn_e_holds H2 ltac:(clear - Big; lia) Le) as (eq & X2 & Y2). rewrite X2 in E. cbn [obind] in E.
  destruct (bn_mod_ok d p1 vd (vp - 1) Hd H1 ltac:(clear - Big; lia) Ld) as (dp & X3 & Y3). rewrite X3 in E. cbn [obind] in E.
  destruct (bn_mod_ok d q1 vd (vq - 1) Hd H2 ltac:(clear - Big; lia) Ld) as (dq & X4 & Y4). rewrite X4 in E. cbn [obind] in E.
  injection E as <- <- <-.
  exists vp, vq, (vp * vq), vd.
  split; [split; [split; [replace (h + 1 - 1) with h by (clear; lia); exact Bp|exact Opp]|exists ds, rj1, dp1; split; assumption]|].
  split; [split; [split; assumption|exists dp1, rj2, dq1; split; assumption]|].
  split; [reflexivity|]. split; [exact (conj (conj Wn Hn) (conj (conj Wp Vp) (conj Wq Vq)))|]. split; [exact Tb|]. split; [exact Nlt|]. split; [exact Inv|]. split; [exact D2|]. split; [exact Ldp|].
  intros Pp Pq.
  assert (Gqp : Z.gcd (Z.of_N vq) (Z.of_N vp) = 1%Z).
  { destruct (gcd_prime (Z.of_N vp) (Z.of_N vq) Pp) as [X|X]; [rewrite Z.gcd_comm; exact X|exfalso].
    pose proof (Z.gcd_divide_r (Z.of_N vp) (Z.of_N vq)) as X'. rewrite X in X'. apply Z.divide_pos_le in X'; [clear - X' Hpq; lia|clear - Big; lia]. }
  rewrite Vq, Vp in Vi, Bi. rewrite Gqp in Vi, Bi. specialize (Bi ltac:(clear - Big; lia)).
  assert (Hi : holds qi (Z.to_N (value qi)) /\ Z.to_N (value qi) <= vp /\ (vq * Z.to_N (value qi)) mod vp = 1).
  { split; [split; [exact Wi|rewrite Z2N.id; [reflexivity|clear - Ci'; lia]]|]. split; [clear - Bi Ci'; lia|].
    apply N2Z.inj. rewrite N2Z.inj_mod, N2Z.inj_mul, Z2N.id by (clear - Big Ci'; lia). change (Z.of_N 1) with 1%Z.
    replace (Z.of_N vq * value qi)%Z with (1 + (- value yi) * Z.of_N vp)%Z by (clear - Vi; lia). rewrite Z.mod_add by (clear - Big; lia). apply Z.mod_1_l. clear - Big. lia. }
  split; constructor; cbn [k_n k_ed k_p k_q k_dp k_dq k_qinv k_pwr]; try (intros _);
    first [exact (conj Wn Hn)|exact bn_e_holds|exact Hd|exact (conj Wp Vp)|exact (conj Wq Vq)|assumption|eexists; exact Hi].
Qed.

Lemma generate_loop_ok fuel : forall bits ds pub pri ds', 88 < bits <= 4096 -> draws ds -> generate_loop fuel bits ds = Some (Some (pub, pri, ds')) ->
  exists p q n d, tested (bits / 2 + 1) p /\ tested (bits / 2) q /\ n = p * q /\ (holds (k_n pub) n /\ holds (k_p pub) p /\ holds (k_q pub) q) /\ 2 ^ (bits - 1) <= n /\ n < 2 ^ (2 * (bits / 2) + 1) /\
    (65537 * d) mod ((p - 1) * (q - 1)) = 1 /\ d <= (p - 1) * (q - 1) /\
    (prime (Z.of_N p) -> prime (Z.of_N q) -> key_for pub n 65537 p q /\ key_for pri n d p q).
Proof.
  induction fuel as [|f IH]; intros bits ds pub pri ds' Hb D E; cbn [generate_loop] in E; [discriminate|].
  destruct (generate_once bits ds) as [[[[[k1 k2]|] r]|]|] eqn:G; cbn [obind] in E; try discriminate.
  - injection E as -> -> ->. destruct (generate_once_ok bits ds pub pri ds' Hb D G) as (p & q & n & d & H1 & H2 & H3 & Hh & H4 & H5 & H6 & _ & H7 & H8).
    exists p, q, n, d. repeat (split; [assumption|]). assumption.
  - apply (IH bits r pub pri ds' Hb); [|exact E]. clear - D G Hb. unfold generate_once in G.
    destruct (bn_prime _ ds) as [[[p dp1]|]|] eqn:Ep; [|discriminate|discriminate]. cbn [obind] in G. destruct (bn_prime_search _ _ _ _ D Ep) as (_ & _ & _ & _ & D1 & _).
    destruct (bn_prime _ dp1) as [[[q dq1]|]|] eqn:Eq; [|discriminate|discriminate]. cbn [obind] in G. destruct (bn_prime_search _ _ _ _ D1 Eq) as (_ & _ & _ & _ & D2 & _).
    repeat match type of G with
    | obind ?x _ = _ => destruct x; cbn [obind] in G; [|discriminate]
    | (if ?x then _ else _) = _ => destruct x
    | match ?x with Some _ => _ | None => _ end = _ => destruct x
    | (let '(_, _) := ?x in _) = _ => destruct x
    end; try discriminate; injection G as <-; exact D2.
Qed.

Lemma key_generate_ok bits ds pub pri ds' : bits <= 4096 -> draws ds -> key_generate bits ds = Some (Some (pub, pri, ds')) ->
  88 < bits /\ exists p q n d, tested (bits / 2 + 1) p /\ tested (bits / 2) q /\ n = p * q /\ (holds (k_n pub) n /\ holds (k_p pub) p /\ holds (k_q pub) q) /\ 2 ^ (bits - 1) <= n /\ n < 2 ^ (bits + 1) /\ (bits <= 4095 -> n < 2 ^ 4096) /\
    (65537 * d) mod ((p - 1) * (q - 1)) = 1 /\ d <= (p - 1) * (q - 1) /\
    (prime (Z.of_N p) -> prime (Z.of_N q) -> n < 2 ^ 4096 -> keys pub pri n 65537 d p q).
Proof.
  intros Hb D E. unfold key_generate in E. destruct (N.leb_spec bits 88) as [|L]; [discriminate|]. cbn [orb] in E.
  destruct (BITS <? bits); [discriminate|]. split; [exact L|].
  destruct (generate_loop_ok _ _ _ _ _ _ (conj L Hb) D E) as (p & q & n & d & H1 & H2 & H3 & Hf & H4 & H5 & H6 & H7 & H8).
  assert (Hh : 44 <= bits / 2 /\ 2 * (bits / 2) <= bits). { pose proof (N.div_mod' bits 2). pose proof (N.mod_lt bits 2 ltac:(discriminate)). clear - L H H0. lia. }
  exists p, q, n, d. split; [exact H1|]. split; [exact H2|]. split; [exact H3|]. split; [exact Hf|]. split; [exact H4|].
  split; [eapply N.lt_le_trans; [exact H5|]; apply N.pow_le_mono_r; [discriminate|clear - Hh; lia]|].
  split; [intros L5; eapply N.lt_le_trans; [exact H5|]; apply N.pow_le_mono_r; [discriminate|clear - Hh L5; lia]|].
  split; [exact H6|]. split; [exact H7|]. intros Pp Pq Ln. destruct (H8 Pp Pq) as [K1 K2].
  destruct H1 as [[Bp _] _]. destruct H2 as [[Bq _] _]. replace (bits / 2 + 1 - 1) with (bits / 2) in Bp by (clear; lia).
  assert (Hbig : 2 ^ 43 <= 2 ^ (bits / 2 - 1)) by (apply N.pow_le_mono_r; [discriminate|clear - Hh; lia]). change (2 ^ 43) with 8796093022208 in Hbig.
  assert (Hpow : 2 ^ (bits / 2) = 2 * 2 ^ (bits / 2 - 1)) by (rewrite <- N.pow_succ_r'; f_equal; clear - Hh; lia).
  constructor; try assumption.
  - constructor; try assumption. clear - Bp Bq. intros ->. lia.
  - change (2 ^ 32) with 4294967296. clear - Bp Hbig Hpow. lia.
  - change (2 ^ 32) with 4294967296. clear - Bq Hbig. lia.
  - discriminate.
  - clear - Bp Hbig Hpow. lia.
  - clear - Bq Hbig. lia.
Qed.

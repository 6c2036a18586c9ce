Require Import List Arith NArith ZArith Lia Bool Znumtheory.
Require Import ZifyBool ZifyNat ZifyN.
Require Import Verif.Base Verif.EndianSpec Verif.BnModel Verif.BnSpec Verif.BnLimbProofs Verif.BnAddProofs Verif.BnMulProofs
  Verif.BnDivProofs Verif.BnShiftProofs Verif.BnProofs Verif.BnTextModel Verif.BnTextProofs Verif.BnStringProofs
  Verif.BnModModel Verif.BnModProofs Verif.BnLooseProofs Verif.NumProofs Verif.RsaModel Verif.RsaSpec.
Import ListNotations.
Open Scope N_scope.

(** * Numbers *)

Lemma pow_mod_base a x p : p <> 0 -> (a mod p) ^ x mod p = a ^ x mod p.
Proof.
  intros Hp. apply N.peano_ind with (n := x); [reflexivity|]. intros n IH.
  rewrite !N.pow_succ_r', (N.mul_mod a), (N.mul_mod (a mod p)), N.mod_mod, IH by exact Hp. reflexivity.
Qed.

Lemma fermat_N p a : prime (Z.of_N p) -> a mod p <> 0 -> a ^ (p - 1) mod p = 1.
Proof.
  intros P A. pose proof (prime_ge_2 _ P) as P2. assert (Hp : p <> 0) by lia.
  pose proof (N.mod_lt a p Hp) as L.
  pose proof (fermat_little (Z.of_N p) (Z.of_N (a mod p)) P ltac:(lia)) as F.
  rewrite <- pow_mod_base by exact Hp.
  apply N2Z.inj. rewrite N2Z.inj_mod, N2Z.inj_pow, N2Z.inj_sub by lia. exact F.
Qed.

Lemma pow_reduce p a x : prime (Z.of_N p) -> x mod (p - 1) <> 0 -> a ^ (x mod (p - 1)) mod p = a ^ x mod p.
Proof.
  intros P X. pose proof (prime_ge_2 _ P) as P2. assert (Hp : p <> 0) by lia.
  destruct (N.eq_dec (p - 1) 0) as [Z|Hp1]; [lia|].
  pose proof (N.div_mod x (p - 1) Hp1) as D. set (r := x mod (p - 1)) in *. set (c := x / (p - 1)) in *. clearbody r c.
  destruct (N.eq_dec (a mod p) 0) as [A|A].
  - rewrite <- (pow_mod_base a r p Hp), <- (pow_mod_base a x p Hp), A, !N.pow_0_l by (rewrite ?D; lia). reflexivity.
  - rewrite D, N.pow_add_r, N.pow_mul_r, N.mul_mod, <- (pow_mod_base (a ^ (p - 1))), (fermat_N p a P A), N.pow_1_l by exact Hp.
    rewrite <- N.mul_mod, N.mul_1_l by exact Hp. reflexivity.
Qed.

Lemma mod_eq_divide a b p : p <> 0 -> (a mod p = b mod p <-> (Z.of_N p | Z.of_N a - Z.of_N b)%Z).
Proof.
  intros Hp. split.
  - intros E. apply Z.mod_divide; [lia|]. rewrite Zminus_mod, <- !N2Z.inj_mod, E, Z.sub_diag. reflexivity.
  - intros D. apply Z.mod_divide in D; [|lia]. apply N2Z.inj. rewrite !N2Z.inj_mod.
    replace (Z.of_N a) with (Z.of_N b + (Z.of_N a - Z.of_N b))%Z by ring.
    rewrite Zplus_mod, D, Z.add_0_r, Z.mod_mod by lia. reflexivity.
Qed.

Lemma crt_mod p q a b : prime (Z.of_N p) -> prime (Z.of_N q) -> p <> q ->
  a mod p = b mod p -> a mod q = b mod q -> a mod (p * q) = b mod (p * q).
Proof.
  intros P Q N A B. pose proof (prime_ge_2 _ P). pose proof (prime_ge_2 _ Q).
  apply mod_eq_divide in A; [|lia]. apply mod_eq_divide in B; [|lia]. apply mod_eq_divide; [lia|].
  rewrite N2Z.inj_mul. destruct A as [c A]. rewrite A in *.
  assert (R : rel_prime (Z.of_N q) (Z.of_N p)) by (apply prime_rel_prime; [exact Q|]; intros X; apply prime_div_prime in X; auto; lia).
  destruct (Gauss (Z.of_N q) (Z.of_N p) c) as [d D]; [rewrite Z.mul_comm; exact B|exact R|].
  exists d. rewrite D. ring.
Qed.

Lemma exponent_two e d p : 2 <= e -> e < p -> (e * d) mod p = 1 -> 2 <= d mod p.
Proof.
  intros E L M. rewrite <- N.mul_mod_idemp_r in M by lia. destruct (N.le_gt_cases 2 (d mod p)) as [G|G]; [exact G|exfalso].
  assert (C : d mod p = 0 \/ d mod p = 1) by lia. destruct C as [C|C]; rewrite C in M.
  - rewrite N.mul_0_r, N.mod_0_l in M by lia. discriminate.
  - rewrite N.mul_1_r, N.mod_small in M by lia. lia.
Qed.

Lemma mod_factor a b p q : p <> 0 -> q <> 0 -> a mod (p * q) = b mod (p * q) -> a mod p = b mod p.
Proof.
  intros Hp Hq E. apply mod_eq_divide; [exact Hp|]. apply mod_eq_divide in E; [|lia].
  rewrite N2Z.inj_mul in E. destruct E as [c E]. exists (c * Z.of_N q)%Z. rewrite E. ring.
Qed.

Lemma split_mod a b x : 1 < a -> 1 < b -> x mod (a * b) = 1 -> x mod a = 1 /\ x mod b = 1.
Proof.
  intros A B E. assert (L : 1 < a * b) by (clear - A B; nia).
  assert (H : forall c d, 1 < c -> d <> 0 -> a * b = c * d -> x mod c = 1).
  { intros c d C D F. rewrite F in E, L. rewrite <- (N.mod_small 1 (c * d)) in E by exact L.
    rewrite (mod_factor x 1 c d) by (auto; clear - C; lia). apply N.mod_small; exact C. }
  split; [apply (H a b)|apply (H b a)]; auto; try (clear - A B; lia). 
Qed.

(** The two powers undo each other. *)
Lemma inverse_prime p a e d : prime (Z.of_N p) -> 2 < p -> (e * d) mod (p - 1) = 1 -> (a ^ e) ^ d mod p = a mod p.
Proof.
  intros P P2 M. rewrite <- N.pow_mul_r, <- (pow_reduce p a (e * d) P) by lia. rewrite M, N.pow_1_r. reflexivity.
Qed.

Lemma pair_inverse n e d p q a : pair n e d p q -> 2 < p -> 2 < q -> a < n -> (a ^ e mod n) ^ d mod n = a.
Proof.
  intros [P Q D -> E] P2 Q2 A. rewrite pow_mod_base by lia.
  destruct (split_mod (p - 1) (q - 1) (e * d)) as [E1 E2]; [clear - P2; lia|clear - Q2; lia|exact E|].
  rewrite <- (N.mod_small a (p * q)) at 2 by exact A.
  apply crt_mod; auto; apply inverse_prime; auto.
Qed.

Lemma pair_sym n e d p q : pair n e d p q -> pair n d e p q.
Proof. intros [P Q D E M]. constructor; auto. rewrite N.mul_comm. exact M. Qed.

Lemma pair_exponents n e d p q : pair n e d p q -> 2 <= e -> e < p - 1 -> e < q - 1 ->
  2 <= d mod (p - 1) /\ 2 <= d mod (q - 1).
Proof.
  intros [P Q D _ E] E2 Ep Eq.
  destruct (split_mod (p - 1) (q - 1) (e * d)) as [E1 E3]; [clear - E2 Ep; lia|clear - E2 Eq; lia|exact E|].
  split; apply (exponent_two e); auto.
Qed.

(** Garner's recombination. *)
Lemma garner p q i m1 m2 y : prime (Z.of_N p) -> prime (Z.of_N q) -> p <> q -> (q * i) mod p = 1 ->
  m1 < p -> m2 < q -> m2 <= m1 -> y mod p = m1 -> y mod q = m2 ->
  ((m1 - m2) * i) mod p * q + m2 < p * q /\ ((m1 - m2) * i) mod p * q + m2 = y mod (p * q).
Proof.
  intros P Q D I L1 L2 L Y1 Y2. pose proof (prime_ge_2 _ P). pose proof (prime_ge_2 _ Q).
  assert (Hp : p <> 0) by lia. assert (Hq : q <> 0) by lia.
  set (h := ((m1 - m2) * i) mod p). assert (Hh : h < p) by (apply N.mod_lt; exact Hp).
  assert (B : h * q + m2 < p * q).
  { assert (X : (h + 1) * q <= p * q) by (apply N.mul_le_mono_r; clear - Hh; lia). rewrite N.mul_add_distr_r, N.mul_1_l in X. clear - X L2. lia. } split; [exact B|].
  rewrite <- (N.mod_small (h * q + m2) (p * q)) by exact B. apply crt_mod; auto.
  - rewrite Y1. rewrite <- N.add_mod_idemp_l by exact Hp. unfold h. rewrite N.mul_mod_idemp_l by exact Hp.
    replace ((m1 - m2) * i * q) with ((m1 - m2) * (q * i)) by ring.
    rewrite <- N.mul_mod_idemp_r, I, N.mul_1_r, N.add_mod_idemp_l by exact Hp.
    replace (m1 - m2 + m2) with m1 by lia. apply N.mod_small; exact L1.
  - rewrite Y2, N.add_comm, N.mod_add by exact Hq. apply N.mod_small; exact L2.
Qed.

(** * The primitive *)

Lemma holds_pos b x : holds b x -> 0 < x -> wfp b /\ neg b = false /\ mag b = x.
Proof.
  intros [W V] X. split; [apply wf_wfp; exact W|]. unfold value in V. destruct (neg b); split; auto; lia.
Qed.
Lemma holds_mag b x : holds b x -> wfp b /\ mag b = x.
Proof. intros [W V]. split; [apply wf_wfp; exact W|]. unfold value in V. destruct (neg b); lia. Qed.

Lemma len_of_mag b k : wfp b -> mag b < P k -> (len b <= k)%nat.
Proof.
  intros W M. destruct (Nat.le_gt_cases (len b) k) as [L|L]; [exact L|exfalso].
  pose proof (mag_ge b W ltac:(lia)) as G. pose proof (P_mono k (len b - 1) ltac:(lia)). lia.
Qed.
Lemma P_len a b : wfp a -> wfp b -> mag a < mag b -> (len a <= len b)%nat.
Proof. intros A B L. apply len_of_mag; [exact A|]. pose proof (mag_lt b B). lia. Qed.
Lemma P128 : P 128 = 2 ^ 4096.
Proof. reflexivity. Qed.
Lemma P1 : P 1 = 2 ^ 32.
Proof. reflexivity. Qed.

(** A factor of at least one limb makes the product longer. *)
Lemma len_factor a b c : wfp a -> wfp c -> 2 ^ 32 <= b -> 0 < mag a -> mag c = mag a * b -> (len a < len c)%nat.
Proof.
  intros A C B A0 E. destruct (Nat.lt_ge_cases (len a) (len c)) as [L|L]; [exact L|exfalso].
  pose proof (mag_lt c C) as M. pose proof (P_mono _ _ L) as PM.
  assert (L0 : len a <> 0%nat) by (intros Z; apply (mag_0 a A) in Z; lia).
  pose proof (mag_ge a A ltac:(clear - L0; lia)) as G.
  assert (X : P (len a) = P (len a - 1) * 2 ^ 32).
  { rewrite <- P1, <- P_add. f_equal. clear - L0. lia. }
  assert (Y : P (len a - 1) * 2 ^ 32 <= mag a * b) by (apply N.mul_le_mono; assumption).
  rewrite E in M. clear - M PM X Y. lia.
Qed.

Section Primitive.
Variables (k : key) (n x p q : N).
Hypothesis HK : key_for k n x p q.
Hypothesis Pp : prime (Z.of_N p).
Hypothesis Pq : prime (Z.of_N q).
Hypothesis Dpq : p <> q.
Hypothesis Hn : n = p * q.
Hypothesis Gp : 2 ^ 32 <= p.
Hypothesis Gq : 2 ^ 32 <= q.
Hypothesis Fn : n < P 128.
Hypothesis X2 : 2 <= x.
Hypothesis Xp : 2 <= x mod (p - 1).
Hypothesis Xq : 2 <= x mod (q - 1).

Lemma n_big : 1 < n.
Proof. rewrite Hn. apply N.lt_le_trans with (2 ^ 32 * 2 ^ 32); [reflexivity|]. apply N.mul_le_mono; assumption. Qed.

Lemma key_n : wfp (k_n k) /\ neg (k_n k) = false /\ mag (k_n k) = n /\ (len (k_n k) <= 128)%nat.
Proof.
  pose proof n_big as N1. destruct (holds_pos _ _ (kf_n _ _ _ _ _ HK)) as (W & Ng & M); [clear - N1; lia|].
  split; [exact W|]. split; [exact Ng|]. split; [exact M|]. apply len_of_mag; [exact W|]. rewrite M. exact Fn.
Qed.

Lemma plain_ok b : wfl b -> neg b = false -> len b = len (k_n k) ->
  exists r, bn_pwr b (k_ed k) (Some (k_n k)) = Some (Some r) /\ wfl r /\ neg r = false /\
    (len r <= len (k_n k))%nat /\ mag r = mag b ^ x mod n.
Proof.
  intros W Nb L. pose proof n_big as N1. destruct key_n as (Wn & Nn & Mn & Ln).
  destruct (holds_pos _ _ (kf_x _ _ _ _ _ HK)) as (We & Ne & Me); [clear - X2; lia|].
  destruct (lpwr b (k_ed k) (k_n k)) as (r & E & Wr & Nr & Mr & R1 & R2 & _); auto; try (unfold SIZE; clear - L Ln; lia); try (clear - Mn N1; lia).
  exists r. split; [exact E|]. split; [exact Wr|]. split; [exact Nr|].
  split; [apply R2; left; clear - Me X2; lia|]. rewrite <- Mn, <- Me, <- Mr. symmetry. apply N.mod_small. apply R1. left. clear - Me X2; lia.
Qed.

Lemma half_ok (fp : bn) f b fd : wfp fp -> neg fp = false -> mag fp = f -> prime (Z.of_N f) -> 2 ^ 32 <= f ->
  holds fd (x mod (f - 1)) -> 2 <= x mod (f - 1) -> (len fp < len (k_n k))%nat -> wfl b -> neg b = false -> len b = len (k_n k) ->
  exists r, bn_pwr b fd (Some fp) = Some (Some r) /\ wfp r /\ neg r = false /\ mag r = mag b ^ x mod f.
Proof.
  intros Wf Nf Mf Pf Gf Hd D2 Lf W Nb L. destruct key_n as (_ & _ & _ & Ln).
  destruct (holds_pos _ _ Hd) as (We & Ne & Me); [clear - D2; lia|].
  destruct (lpwr b fd fp) as (r & E & Wr & Nr & Mr & R1 & R2 & R3); auto; try (unfold SIZE; clear - L Ln Lf; lia); try (clear - Gf Mf; lia).
  exists r. split; [exact E|]. split; [apply R3; [clear - Me D2; lia|right; clear - L Lf; lia]|]. split; [exact Nr|].
  rewrite <- (pow_reduce f (mag b) x Pf) by (clear - D2; lia). rewrite <- Me, <- Mf, <- Mr. symmetry. apply N.mod_small. apply R1. left. clear - Me D2; lia.
Qed.

Lemma rsaep_ok b : wfl b -> neg b = false -> len b = len (k_n k) ->
  exists r, rsaep_rsadp k b = Some (Some r) /\ wfl r /\ neg r = false /\
    (len r <= len (k_n k))%nat /\ mag r = mag b ^ x mod n.
Proof.
  intros W Nb L. destruct (plain_ok b W Nb L) as (rp & Ep & Rp).
  assert (Plain : exists r, bn_pwr b (k_ed k) (Some (k_n k)) = Some (Some r) /\ wfl r /\ neg r = false /\
    (len r <= len (k_n k))%nat /\ mag r = mag b ^ x mod n) by (exists rp; split; auto).
  unfold rsaep_rsadp. destruct (k_pwr k) eqn:Kp; [exact Plain|].
  destruct key_n as (Wn & Nn & Mn & Ln). pose proof n_big as N1.
  destruct (holds_pos _ _ (kf_x _ _ _ _ _ HK)) as (We & Ne & Me); [clear - X2; lia|].
  destruct (holds_pos _ _ (kf_p _ _ _ _ _ HK Kp)) as (Wp & Np & Mp); [clear - Gp; lia|].
  destruct (holds_pos _ _ (kf_q _ _ _ _ _ HK Kp)) as (Wq & Nq & Mq); [clear - Gq; lia|].
  pose proof (kf_dp _ _ _ _ _ HK Kp) as Hdp. pose proof (kf_dq _ _ _ _ _ HK Kp) as Hdq.
  destruct (kf_i _ _ _ _ _ HK Kp) as (i & Hi & Li & Ii).
  assert (C : exists c, bn_abs_compare (k_ed k) (k_p k) = Some c).
  { destruct (labs_compare _ _ (wfp_wfl _ We) Wp) as [G|[G|[_ G]]].
    - exists (-1)%Z. unfold bn_abs_compare. rewrite (proj2 (Nat.eqb_neq _ _)) by (clear - G; lia). cbn [negb]. rewrite (proj2 (Nat.ltb_ge _ _)) by (clear - G; lia). reflexivity.
    - eexists; exact G.
    - eexists; exact G. }
  destruct C as [c C]. rewrite C. cbn [obind]. destruct (c <=? 0)%Z; [exact Plain|].
  assert (Lp : (len (k_p k) < len (k_n k))%nat) by (apply (len_factor _ q); auto; [rewrite Mp; clear - Gp; lia|rewrite Mn, Mp; exact Hn]).
  assert (Lq : (len (k_q k) < len (k_n k))%nat) by (apply (len_factor _ p); auto; [rewrite Mq; clear - Gq; lia|rewrite Mn, Mq, N.mul_comm; exact Hn]).
  destruct (half_ok _ p b _ Wp Np Mp Pp Gp Hdp Xp Lp W Nb L) as (m1 & E1 & W1 & N1' & M1).
  destruct (half_ok _ q b _ Wq Nq Mq Pq Gq Hdq Xq Lq W Nb L) as (m2 & E2 & W2 & N2' & M2).
  unfold sure. rewrite E1, E2. cbn [obind].
  assert (B1 : mag m1 < p) by (rewrite M1; apply N.mod_lt; clear - Gp; lia).
  assert (B2 : mag m2 < q) by (rewrite M2; apply N.mod_lt; clear - Gq; lia).
  assert (FP : forall v, v < P 256 -> fits v).
  { intros v Hv. unfold fits. rewrite <- P_fits. pose proof (P_mono 256 SIZE ltac:(unfold SIZE; clear; lia)) as X. clear - X Hv. lia. }
  assert (P128' : P 128 * P 128 = P 256) by (rewrite <- P_add; reflexivity).
  assert (Ple : p < P 128 /\ q < P 128).
  { rewrite <- Mp, <- Mq. split.
    - apply N.lt_le_trans with (P (len (k_p k))); [apply mag_lt; auto|apply P_mono; clear - Lp Ln; lia].
    - apply N.lt_le_trans with (P (len (k_q k))); [apply mag_lt; auto|apply P_mono; clear - Lq Ln; lia]. }
  destruct Ple as [Ple Qle]. pose proof (P_pos 128) as PP.
  assert (V1 : value m1 = Z.of_N (mag m1)) by (unfold value; rewrite N1'; reflexivity).
  assert (V2 : value m2 = Z.of_N (mag m2)) by (unfold value; rewrite N2'; reflexivity).
  destruct (sub_ok m1 m2 W1 W2) as (t & E3 & W3 & V3).
  { apply FP. rewrite V1, V2. assert (P 128 <= P 256) by (apply P_mono; clear; lia). clear - B1 B2 Ple Qle H. lia. }
  { left. rewrite N1'. reflexivity. }
  rewrite E3. cbn [obind]. destruct (neg t) eqn:Nt; [exact Plain|].
  assert (Gt : mag m2 <= mag m1 /\ mag t = mag m1 - mag m2).
  { unfold value in V3 at 1. rewrite Nt, V1, V2 in V3. clear - V3. lia. }
  destruct Gt as [Gt Mt].
  destruct (holds_mag _ _ Hi) as (Wi & Mi).
  assert (Ni : neg (k_qinv k) = false).
  { destruct (N.eq_dec i 0) as [Z|Z]; [rewrite Z, N.mul_0_r, N.mod_0_l in Ii by (clear - Gp; lia); discriminate|].
    destruct (holds_pos _ _ Hi) as (_ & A & _); [clear - Z; lia|exact A]. }
  assert (Lt : (len t <= 128)%nat) by (apply len_of_mag; [exact W3|]; rewrite Mt; clear - B1 Ple; lia).
  assert (Li' : (len (k_qinv k) <= 128)%nat) by (apply len_of_mag; [exact Wi|]; rewrite Mi; clear - Li Ple; lia).
  destruct (lmul t (k_qinv k) (wfp_wfl _ W3) (wfp_wfl _ Wi)) as (t2 & E4 & Wt2 & Mt2 & Nt2 & Lt2 & _); [unfold SIZE; clear - Lt Li'; lia|].
  rewrite E4. cbn [obind]. unfold bn_mod at 1, sure.
  destruct (ldiv t2 (k_p k) Wt2 Wp) as (h & qq & E5 & Wh & Mh & Nh & Lh & WPh); auto; [clear - Mp Gp; lia|unfold SIZE; clear - Lt2 Lt Li'; lia|].
  rewrite E5. cbn [obind fst].
  assert (WPh' : wfp h) by (apply WPh; right; apply (mul_wfp t (k_qinv k)); auto; unfold SIZE; clear - Lt Li'; lia).
  destruct (lmul h (k_q k) Wh (wfp_wfl _ Wq)) as (t3 & E6 & Wt3 & Mt3 & Nt3 & Lt3 & _); [unfold SIZE; clear - Lh Lp Lq Ln; lia|].
  rewrite E6. cbn [obind].
  assert (WP3 : wfp t3) by (apply (mul_wfp h (k_q k)); auto; unfold SIZE; clear - Lh Lp Lq Ln; lia).
  assert (G : ((mag m1 - mag m2) * i) mod p * q + mag m2 < p * q /\ ((mag m1 - mag m2) * i) mod p * q + mag m2 = mag b ^ x mod (p * q)).
  { apply garner; auto. }
  destruct G as [G1 G2].
  assert (Mt3' : mag t3 = ((mag m1 - mag m2) * i) mod p * q) by (rewrite Mt3, Mh, Mt2, Mt, Mi, Mp, Mq; reflexivity).
  assert (V4 : value t3 = Z.of_N (mag t3)) by (unfold value; rewrite Nt3; auto).
  assert (PQ : p * q <= P 128) by (rewrite <- Hn; clear - Fn; lia).
  destruct (add_ok t3 m2 WP3 W2) as (t4 & E7 & W4 & V5).
  { apply FP. rewrite V4, V2, Mt3'. assert (P 128 <= P 256) by (apply P_mono; clear; lia). clear - G1 PQ H. lia. }
  rewrite E7. cbn [obind]. rewrite V4, V2, Mt3' in V5.
  assert (M4 : mag t4 = mag b ^ x mod (p * q)) by (rewrite <- G2, <- abs_value, V5; clear; lia).
  assert (N4 : neg t4 = false \/ mag t4 = 0) by (unfold value in V5; destruct (neg t4); [right; clear - V5; lia|left; reflexivity]).
  assert (N4' : neg t4 = false).
  { clear - E7 Nt3 Nt2 Nt Ni Nh Nq N2'. unfold bn_add in E7. rewrite (Nt3 Nh Nq), N2' in E7. cbn [xorb] in E7. unfold bn_sum in E7.
    destruct (if (len t3 <? len m2)%nat then _ else _) as [[ls cc]|]; [|discriminate]. cbn [obind] in E7.
    destruct (negb (cc =? 0) && (length ls <? SIZE)%nat).
    - destruct (nth_error (overlay ls (dat t3)) (length ls)) as [v|]; [|discriminate]. cbn [obind] in E7.
      destruct (store (overlay ls (dat t3)) (length ls) (w64 (v + cc))) as [v'|]; [|discriminate]. cbn [obind] in E7. injection E7 as <-. cbn [neg]. apply Nt3; auto.
    - injection E7 as <-. cbn [neg]. apply Nt3; auto. }
  unfold bn_mod, sure.
  assert (L4 : (len t4 <= 128)%nat) by (apply len_of_mag; [exact W4|]; rewrite M4, <- G2; clear - G1 PQ; lia).
  destruct (ldiv t4 (k_n k) (wfp_wfl _ W4) Wn) as (r & qq2 & E8 & Wr & Mr & Nr & Lr & _); auto; [clear - Mn N1; lia|unfold SIZE; clear - L4; lia|].
  rewrite E8. cbn [obind fst]. exists r. split; [reflexivity|]. split; [exact Wr|]. split; [exact Nr|]. split; [exact Lr|].
  rewrite Mr, M4, Mn, Hn. apply N.mod_mod. rewrite <- Hn. clear - N1. lia.
Qed.
End Primitive.

Require Import List Arith NArith ZArith Lia Bool.
Require Import ZifyBool ZifyNat ZifyN.
Require Import Verif.Base Verif.BnModel Verif.BnSpec Verif.BnLimbProofs Verif.BnAddProofs Verif.BnMulProofs
  Verif.BnDivProofs Verif.BnShiftProofs Verif.BnProofs Verif.BnTextModel Verif.BnTextProofs Verif.BnModModel Verif.BnModProofs.
Import ListNotations.
Open Scope N_scope.

Lemma opp_signs d s : wf d -> wf s -> (0 <= value d /\ value s <= 0)%Z \/ (value d <= 0 /\ 0 <= value s)%Z ->
  neg d && neg s = false \/ len d <> len s \/ mag d = mag s.
Proof.
  intros Hd Hs H. apply wf_wfp in Hd. apply wf_wfp in Hs. pose proof (mag_0 d Hd) as Zd. pose proof (mag_0 s Hs) as Zs.
  unfold value in H. destruct (neg d), (neg s); cbn [andb]; auto. right.
  assert (mag d = 0 \/ mag s = 0) by lia. lia.
Qed.

Lemma sub_wf d s (B : N) : wf d -> wf s -> fits B -> (Z.abs (value d - value s) <= Z.of_N B)%Z ->
  (0 <= value d /\ value s <= 0)%Z \/ (value d <= 0 /\ 0 <= value s)%Z ->
  exists r, bn_sub d s = Some r /\ wf r /\ value r = (value d - value s)%Z.
Proof.
  intros Hd Hs F L H. destruct (sub_ok d s) as (r & E & W & V); try (apply wf_wfp; assumption).
  - eapply fits_le; [|exact F]. clear - L. lia.
  - apply opp_signs; assumption.
  - exists r. split; [exact E|]. split; [apply wf_wfp; exact W|exact V].
Qed.

Definition sgn_ok (x0 x1 y0 y1 : Z) : Prop :=
  (0 <= x0 /\ x1 <= 0 /\ y0 <= 0 /\ 0 <= y1)%Z \/ (x0 <= 0 /\ 0 <= x1 /\ 0 <= y0 /\ y1 <= 0)%Z.

Record inv (A B : N) (n r q x0 y0 x1 y1 : bn) : Prop := {
  i_n : wf n; i_r : wf r; i_q : wf q; i_x0 : wf x0; i_y0 : wf y0; i_x1 : wf x1; i_y1 : wf y1;
  i_ln : (len n < 257)%nat;
  i_rn : (0 <= value r < value n)%Z; i_qp : (0 <= value q)%Z;
  i_e0 : (value x0 * Z.of_N A + value y0 * Z.of_N B = value q * value n + value r)%Z;
  i_e1 : (value x1 * Z.of_N A + value y1 * Z.of_N B = value n)%Z;
  i_bx : (Z.abs (value x1) * (value q * value n + value r) + Z.abs (value x0) * value n = Z.of_N B)%Z;
  i_by : (Z.abs (value y1) * (value q * value n + value r) + Z.abs (value y0) * value n = Z.of_N A)%Z;
  i_gcd : Z.gcd (value q * value n + value r) (value n) = Z.gcd (Z.of_N A) (Z.of_N B);
  i_sg : sgn_ok (value x0) (value x1) (value y0) (value y1) }.

Lemma cof_step (x0 x1 q n r B : Z) : (0 < n -> 0 <= r -> 0 <= q ->
  (0 <= x0 /\ x1 <= 0) \/ (x0 <= 0 /\ 0 <= x1) ->
  Z.abs x1 * (q * n + r) + Z.abs x0 * n = B ->
  Z.abs (x0 - q * x1) <= B /\ Z.abs (q * x1) <= B /\ Z.abs (x0 - q * x1) * n + Z.abs x1 * r = B /\
  ((0 <= x0 /\ q * x1 <= 0) \/ (x0 <= 0 /\ 0 <= q * x1)))%Z.
Proof.
  intros Hn Hr Hq Hs E.
  assert (A1 : (Z.abs (x0 - q * x1) = Z.abs x0 + q * Z.abs x1)%Z).
  { destruct Hs as [[Hs1 Hs2]|[Hs1 Hs2]].
    - assert (q * x1 <= 0)%Z by nia. rewrite (Z.abs_eq x0), (Z.abs_neq x1), Z.abs_eq; nia.
    - assert (0 <= q * x1)%Z by nia. rewrite (Z.abs_neq x0), (Z.abs_eq x1), Z.abs_neq; nia. }
  assert (A2 : (Z.abs (q * x1) = q * Z.abs x1)%Z) by (rewrite Z.abs_mul, (Z.abs_eq q); lia).
  rewrite A1, A2. pose proof (Z.abs_nonneg x0) as P0. pose proof (Z.abs_nonneg x1) as P1.
  assert (Hsum : (Z.abs x0 + q * Z.abs x1 <= B)%Z).
  { rewrite <- E. revert P0 P1. generalize (Z.abs x0) (Z.abs x1). clear - Hn Hr Hq. intros v u Hv Hu.
    assert (0 <= u * r)%Z by nia. assert (v <= v * n)%Z by nia. assert (q * u <= q * u * n)%Z by (assert (0 <= q * u)%Z by nia; nia). nia. }
  split; [exact Hsum|]. split; [assert (0 <= q * Z.abs x1)%Z by nia; lia|]. split; [rewrite <- E; ring|].
  destruct Hs as [[Hs1 Hs2]|[Hs1 Hs2]]; [left|right]; split; auto; nia.
Qed.

Section Loop.
Variables A B : N.
Hypothesis FA : fits A.
Hypothesis FB : fits B.

Lemma step n r q x0 y0 x1 y1 fuel : inv A B n r q x0 y0 x1 y1 -> (0 < value r)%Z ->
  exists tx ty r' q', inv A B r r' q' x1 y1 tx ty /\ value n = (value q' * value r + value r')%Z /\
    forall ux uy, eulid_loop (S fuel) n r q x0 y0 x1 y1 ux uy = eulid_loop fuel r r' q' x1 y1 tx ty tx ty.
Proof.
  intros [Hn Hr Hq Hx0 Hy0 Hx1 Hy1 Hln Hrn Hqp E0 E1 Bx By G Sg] R0.
  assert (Hn0 : (0 < value n)%Z) by lia.
  assert (Sx : ((0 <= value x0 /\ value x1 <= 0) \/ (value x0 <= 0 /\ 0 <= value x1))%Z) by (destruct Sg as [?|?]; [left|right]; tauto).
  assert (Sy : ((0 <= value y0 /\ value y1 <= 0) \/ (value y0 <= 0 /\ 0 <= value y1))%Z) by (destruct Sg as [?|?]; [right|left]; tauto).
  destruct (cof_step _ _ _ _ _ _ Hn0 (proj1 Hrn) Hqp Sx Bx) as (X1 & X2 & X3 & X4).
  destruct (cof_step _ _ _ _ _ _ Hn0 (proj1 Hrn) Hqp Sy By) as (Y1 & Y2 & Y3 & Y4).
  destruct (mul_wf q x1 Hq Hx1) as (t1 & T1 & Wt1 & Vt1).
  { eapply fits_le; [|exact FB]. rewrite <- !abs_value, <- Zabs2N.inj_mul. clear - X2. lia. }
  destruct (sub_wf x0 t1 B Hx0 Wt1 FB) as (tx & Tx & Wx & Vx).
  { rewrite Vt1. exact X1. } { rewrite Vt1. exact X4. }
  destruct (mul_wf q y1 Hq Hy1) as (t2 & T2 & Wt2 & Vt2).
  { eapply fits_le; [|exact FA]. rewrite <- !abs_value, <- Zabs2N.inj_mul. clear - Y2. lia. }
  destruct (sub_wf y0 t2 A Hy0 Wt2 FA) as (ty & Ty & Wy & Vy).
  { rewrite Vt2. exact Y1. } { rewrite Vt2. exact Y4. }
  destruct (div_value n r Hn Hr R0) as (r' & q' & D & Wr' & Wq' & Vq' & Vr'); [left; exact Hln|].
  pose proof (Z.quot_rem' (value n) (value r)) as QR. rewrite <- Vq', <- Vr' in QR.
  assert (Rr : (0 <= value r' < value r)%Z) by (rewrite Vr', Z.rem_mod_nonneg by (clear - Hn0 R0; lia); apply Z.mod_pos_bound; exact R0).
  assert (Qq : (0 <= value q')%Z) by (rewrite Vq'; apply Z.quot_pos; clear - Hn0 R0; lia).
  assert (EN : value n = (value q' * value r + value r')%Z) by (rewrite QR at 1; ring).
  exists tx, ty, r', q'. split; [|split; [exact EN|]].
  - constructor; auto.
    + pose proof (proj1 (wf_wfp _) Hn) as Pn. pose proof (proj1 (wf_wfp _) Hr) as Pr.
      destruct (Nat.lt_ge_cases (len r) 257) as [L|L]; [exact L|exfalso].
      pose proof (len_lt_mag n r Pn Pr ltac:(clear - L Hln; lia)) as ML.
      pose proof (mag_value n ltac:(clear - Hn0; lia)). pose proof (mag_value r ltac:(clear - R0; lia)). clear - H H0 ML Hrn. lia.
    + rewrite <- EN. exact E1.
    + rewrite Vx, Vy, Vt1, Vt2.
      replace ((value x0 - value q * value x1) * Z.of_N A + (value y0 - value q * value y1) * Z.of_N B)%Z
        with ((value x0 * Z.of_N A + value y0 * Z.of_N B) - value q * (value x1 * Z.of_N A + value y1 * Z.of_N B))%Z by ring.
      rewrite E0, E1. ring.
    + rewrite <- EN, Vx, Vt1. exact X3.
    + rewrite <- EN, Vy, Vt2. exact Y3.
    + rewrite <- EN, <- G. rewrite (Z.gcd_comm (value q * value n + value r)). 
      replace (value q * value n + value r)%Z with (value r + value q * value n)%Z by ring.
      rewrite Z.gcd_add_mult_diag_r. reflexivity.
    + rewrite Vx, Vy, Vt1, Vt2. clear - Sg X4 Y4 Hqp. destruct Sg as [(S1 & S2 & S3 & S4)|(S1 & S2 & S3 & S4)]; [right|left].
      * assert (value q * value x1 <= 0)%Z by (apply Z.mul_nonneg_nonpos; auto). assert (0 <= value q * value y1)%Z by (apply Z.mul_nonneg_nonneg; auto). lia.
      * assert (0 <= value q * value x1)%Z by (apply Z.mul_nonneg_nonneg; auto). assert (value q * value y1 <= 0)%Z by (apply Z.mul_nonneg_nonpos; auto). lia.
  - intros ux uy. cbn [eulid_loop].
    rewrite compare_ok by (first [apply wf_wfp; assumption|apply wfp_zero|left; apply andb_false_r]). cbn [obind].
    assert (C : zcmp (value r) (value bn_zero) = 1%Z).
    { unfold zcmp. change (value bn_zero) with 0%Z. destruct (Z.compare_spec (value r) 0); auto; clear - H R0; lia. }
    rewrite C. cbn [Z.ltb Z.compare]. rewrite T1. cbn [obind]. rewrite Tx. cbn [obind]. rewrite T2. cbn [obind]. rewrite Ty. cbn [obind].
    rewrite D. cbn [obind]. reflexivity.
Qed.

Lemma stop n r q x0 y0 x1 y1 fuel : inv A B n r q x0 y0 x1 y1 -> value r = 0%Z ->
  eulid_loop (S fuel) n r q x0 y0 x1 y1 x1 y1 = Some (Some (x1, y1)) /\
  (value x1 * Z.of_N A + value y1 * Z.of_N B = Z.gcd (Z.of_N A) (Z.of_N B))%Z.
Proof.
  intros [Hn Hr Hq Hx0 Hy0 Hx1 Hy1 Hln Hrn Hqp E0 E1 Bx By G Sg] R0. split.
  - cbn [eulid_loop].
    rewrite compare_ok by (first [apply wf_wfp; assumption|apply wfp_zero|left; apply andb_false_r]). cbn [obind].
    rewrite R0. change (zcmp 0 (value bn_zero)) with 0%Z. reflexivity.
  - rewrite E1, <- G, R0, Z.add_0_r. rewrite Z.gcd_comm, Z.mul_comm, Z.gcd_mul_diag_l; lia.
Qed.

Lemma loop_ok k : forall fuel n r q x0 y0 x1 y1, (2 * k + 1 <= fuel)%nat -> inv A B n r q x0 y0 x1 y1 -> (value n < 2 ^ Z.of_nat k)%Z ->
  exists x y, eulid_loop fuel n r q x0 y0 x1 y1 x1 y1 = Some (Some (x, y)) /\ wf x /\ wf y /\
    (value x * Z.of_N A + value y * Z.of_N B = Z.gcd (Z.of_N A) (Z.of_N B))%Z /\
    (0 < value q * value n + value r -> Z.abs (value x) * Z.gcd (Z.of_N A) (Z.of_N B) <= Z.of_N B)%Z.
Proof.
  induction k as [|k IH]; intros fuel n r q x0 y0 x1 y1 Hf I Hn.
  - destruct I. change (2 ^ Z.of_nat 0)%Z with 1%Z in Hn. lia.
  - destruct fuel as [|[|fuel]]; [lia|lia|]. pose proof (i_rn _ _ _ _ _ _ _ _ _ I) as Hrn.
    destruct (Z.eq_dec (value r) 0) as [Z|Z].
    { exists x1, y1. destruct (stop _ _ _ _ _ _ _ (S fuel) I Z) as [S1 S2]. destruct I as [? ? ? ? ? ? ? ? Rn ? ? i_e4 Bx ? ? ?].
      split; [exact S1|]. split; [assumption|]. split; [assumption|]. split; [exact S2|]. rewrite <- S2, i_e4. rewrite Z, Z.add_0_r in *. intros Q. revert Q Bx Rn. clear. intros Q Bx Rn.
      rewrite <- Bx. assert (0 < value q)%Z by (apply (Zmult_lt_0_reg_r (value n)); lia).
      assert (0 <= Z.abs (value x0) * value n)%Z by (apply Z.mul_nonneg_nonneg; lia). assert (0 <= Z.abs (value x1) * ((value q - 1) * value n))%Z by (apply Z.mul_nonneg_nonneg; [lia|apply Z.mul_nonneg_nonneg; lia]). lia. }
    destruct (step _ _ _ _ _ _ _ (S fuel) I) as (tx & ty & r' & q' & I' & En & Es); [lia|]. rewrite Es. clear Es.
    pose proof (i_rn _ _ _ _ _ _ _ _ _ I') as Hrn'.
    destruct (Z.eq_dec (value r') 0) as [Z'|Z'].
    { exists tx, ty. destruct (stop _ _ _ _ _ _ _ fuel I' Z') as [S1 S2]. destruct I' as [? ? ? ? ? ? ? ? Rn ? ? i_e4 Bx ? ? ?].
      split; [exact S1|]. split; [assumption|]. split; [assumption|]. split; [exact S2|]. intros _. rewrite <- S2, i_e4. rewrite Z', Z.add_0_r in *. revert Bx Rn. clear - Hrn En. intros Bx Rn.
      rewrite <- Bx. assert (0 < value q')%Z by (apply (Zmult_lt_0_reg_r (value r)); lia).
      assert (0 <= Z.abs (value x1) * value r)%Z by (apply Z.mul_nonneg_nonneg; lia). assert (0 <= Z.abs (value tx) * ((value q' - 1) * value r))%Z by (apply Z.mul_nonneg_nonneg; [lia|apply Z.mul_nonneg_nonneg; lia]). lia. }
    destruct (step _ _ _ _ _ _ _ fuel I') as (tx2 & ty2 & r2 & q2 & I2 & En2 & Es); [lia|]. rewrite Es. clear Es.
    assert (Hn2 : (value r' < 2 ^ Z.of_nat k)%Z); [|destruct (IH fuel _ _ _ _ _ _ _ ltac:(lia) I2 Hn2) as (x & y & X1 & X2 & X3 & X4 & X5); exists x, y; split; [exact X1|]; split; [exact X2|]; split; [exact X3|]; split; [exact X4|]; intros _; apply X5; rewrite <- En2; lia].
    rewrite Nat2Z.inj_succ, Z.pow_succ_r in Hn by lia. pose proof (i_qp _ _ _ _ _ _ _ _ _ I') as Q'.
    revert Hn. generalize (2 ^ Z.of_nat k)%Z. clear - Hrn Hrn' En Q' Z Z'. intros p Hp.
    assert (value q' <> 0)%Z by (intros X; rewrite X in En; lia). assert (value r <= value q' * value r)%Z by nia. lia.
Qed.
End Loop.

Lemma eulid_bound a b : wf a -> wf b -> (0 <= value a)%Z -> (0 < value b)%Z -> (len a < 257)%nat -> (len b < 257)%nat ->
  exists x y, bn_eulid a b = Some (Some (x, y)) /\ wf x /\ wf y /\
    (value x * value a + value y * value b = Z.gcd (value a) (value b))%Z /\ (0 < value a -> Z.abs (value x) * Z.gcd (value a) (value b) <= value b)%Z.
Proof.
  intros Ha Hb A0 B0 La Lb. unfold bn_eulid.
  destruct (div_value a b Ha Hb B0) as (r & q & D & Wr & Wq & Vq & Vr); [left; exact La|]. rewrite D. cbn [obind].
  pose proof (mag_value a A0) as Ma. pose proof (mag_value b ltac:(clear - B0; lia)) as Mb.
  pose proof (Z.quot_rem' (value a) (value b)) as QR. rewrite <- Vq, <- Vr in QR.
  assert (Rr : (0 <= value r < value b)%Z) by (rewrite Vr, Z.rem_mod_nonneg by (clear - A0 B0; lia); apply Z.mod_pos_bound; exact B0).
  assert (Qq : (0 <= value q)%Z) by (rewrite Vq; apply Z.quot_pos; clear - A0 B0; lia).
  assert (EN : (value q * value b + value r = Z.of_N (mag a))%Z) by (rewrite <- Ma, QR at 1; ring).
  pose proof (proj1 (wf_wfp a) Ha) as Wa. pose proof (proj1 (wf_wfp b) Hb) as Wb.
  assert (W0 : wf bn_zero) by (apply wf_wfp, wfp_zero). assert (W1 : wf bn_one) by (apply wf_wfp, wfp_one).
  destruct (loop_ok (mag a) (mag b) (mag_fits a Wa) (mag_fits b Wb) (32 * len b) (64 * len b + 2) b r q bn_one bn_zero bn_zero bn_one)
    as (x & y & E & Wx & Wy & V & Bd); [lia| |  |].
  - constructor; auto; rewrite ?EN, ?one_value, <- ?Mb; change (value bn_zero) with 0%Z; rewrite ?Z.mul_0_l, ?Z.mul_1_l, ?Z.add_0_r, ?Z.add_0_l;
      try reflexivity; unfold sgn_ok; lia.
  - rewrite Mb. pose proof (mag_lt b Wb) as M. unfold P in M. change BB with (2 ^ 32) in M. rewrite <- N.pow_mul_r in M.
    apply N2Z.inj_lt in M. rewrite N2Z.inj_pow in M. change (Z.of_N 2) with 2%Z in M.
    replace (Z.of_nat (32 * len b)) with (Z.of_N (32 * N.of_nat (len b))) by (clear; lia). exact M.
  - exists x, y. split; [exact E|]. split; [exact Wx|]. split; [exact Wy|]. rewrite Ma, Mb. split; [exact V|]. rewrite EN in Bd. exact Bd.
Qed.

Lemma eulid_ok a b : wf a -> wf b -> (0 <= value a)%Z -> (0 < value b)%Z -> (len a < 257)%nat -> (len b < 257)%nat ->
  exists x y, bn_eulid a b = Some (Some (x, y)) /\ wf x /\ wf y /\
    (value x * value a + value y * value b = Z.gcd (value a) (value b))%Z.
Proof.
  intros Ha Hb A0 B0 La Lb. destruct (eulid_bound a b Ha Hb A0 B0 La Lb) as (x & y & E & Wx & Wy & V & _). exists x, y. auto.
Qed.

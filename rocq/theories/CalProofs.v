Require Import List Arith NArith ZArith Bool Lia.
Require Import ZifyBool ZifyNat ZifyN.
Require Import Verif.Base Verif.CalModel Verif.CalSpec.
Import ListNotations.
Open Scope Z_scope.

Lemma is_leap_ok y : 0 <= y -> is_leap y = leap_year y.
Proof. intros H. unfold is_leap, leap_year. rewrite !Z.rem_mod_nonneg by lia.
  destruct (Z.eqb_spec (y mod 100) 0), (Z.eqb_spec (y mod 400) 0), (Z.eqb_spec (y mod 4) 0); cbn; first [reflexivity|exfalso; lia]. Qed.

Ltac months m H := assert (H : m = 1 \/ m = 2 \/ m = 3 \/ m = 4 \/ m = 5 \/ m = 6 \/ m = 7 \/ m = 8 \/ m = 9 \/ m = 10 \/ m = 11 \/ m = 12) by lia;
  repeat (destruct H as [H|H]; [subst m|]); [..|subst m].
Lemma mon_days_ok y m : 0 <= y -> 1 <= m <= 12 -> mon_days (is_leap y) (m - 1) = Some (days_in_month y m).
Proof. intros Hy Hm. rewrite is_leap_ok by lia. months m X; unfold days_in_month; destruct (leap_year y); reflexivity. Qed.
Lemma dim_range y m : 28 <= days_in_month y m <= 31.
Proof. unfold days_in_month. destruct (_ || _); [lia|]. destruct (m =? 2); [destruct (leap_year y)|]; lia. Qed.

(** Days before a year, a month, and a date. *)
Definition yd (y : Z) : Z := sum_years (Z.to_nat (y - 1970)) (y - 1).
Definition md (b : bool) (m : Z) : Z := nth (Z.to_nat (m - 1)) (if b then [0; 31; 60; 91; 121; 152; 182; 213; 244; 274; 305; 335; 366]
                                                        else [0; 31; 59; 90; 120; 151; 181; 212; 243; 273; 304; 334; 365]) 0.
Definition dn (y m d : Z) : Z := yd y + md (leap_year y) m + (d - 1).
Definition valid (y m d : Z) : Prop := 1970 <= y /\ 1 <= m <= 12 /\ 1 <= d <= days_in_month y m.

Lemma yd_next y : 1970 <= y -> yd (y + 1) = yd y + ylen y.
Proof.
  intros H. unfold yd. replace (Z.to_nat (y + 1 - 1970)) with (S (Z.to_nat (y - 1970))) by lia. cbn [sum_years].
  replace (y + 1 - 1) with y by lia. lia.
Qed.
Lemma yd_1970 : yd 1970 = 0.
Proof. reflexivity. Qed.
Lemma ylen_ok y : 0 <= y -> ylen y = if leap_year y then 366 else 365.
Proof. intros H. unfold ylen. rewrite is_leap_ok by lia. reflexivity. Qed.
Lemma add_years_ok : forall n y, 1970 <= y -> add_years n y = yd (y + Z.of_nat n) - yd y.
Proof.
  induction n as [|n IH]; intros y H; cbn [add_years]; [rewrite Z.add_0_r; lia|].
  rewrite IH by lia. rewrite (yd_next y) by lia. replace (y + Z.of_nat (S n)) with (y + 1 + Z.of_nat n) by lia. lia.
Qed.
Lemma yd_mono y1 y2 : 1970 <= y1 < y2 -> yd y1 + ylen y1 <= yd y2.
Proof.
  intros H. rewrite <- yd_next by lia. replace y2 with (y1 + 1 + Z.of_nat (Z.to_nat (y2 - (y1 + 1)))) by lia.
  generalize (Z.to_nat (y2 - (y1 + 1))). intros n. rewrite <- (Z.sub_add (yd (y1 + 1)) (yd (y1 + 1 + Z.of_nat n))), <- add_years_ok by lia.
  assert (X : forall n y, 0 <= add_years n y) by (clear; induction n as [|n IH]; intros y; cbn [add_years]; [lia|]; specialize (IH (y + 1)); unfold ylen; destruct (is_leap y); lia).
  specialize (X n (y1 + 1)). lia.
Qed.
Lemma sum_months_ok b m : 1 <= m <= 13 -> sum_months (Z.to_nat (m - 1)) b = Some (md b m).
Proof. intros H. destruct (Z.eq_dec m 13) as [->|]; [destruct b; reflexivity|]. months m X; destruct b; reflexivity. Qed.
Lemma md_next y m : 1 <= m <= 12 -> md (leap_year y) (m + 1) = md (leap_year y) m + days_in_month y m.
Proof. intros H. months m X; unfold days_in_month; destruct (leap_year y); reflexivity. Qed.
Lemma md_end y : 0 <= y -> md (leap_year y) 13 = ylen y.
Proof. intros H. rewrite ylen_ok by lia. destruct (leap_year y); reflexivity. Qed.
Lemma md_mono y m1 m2 : 1 <= m1 < m2 -> m2 <= 13 -> md (leap_year y) m1 + days_in_month y m1 <= md (leap_year y) m2.
Proof.
  intros H1 H2. rewrite <- md_next by lia.
  assert (X : forall n m, 1 <= m -> m + Z.of_nat n <= 13 -> md (leap_year y) m <= md (leap_year y) (m + Z.of_nat n)).
  { induction n as [|n IH]; intros m Hm Hn; [rewrite Z.add_0_r; lia|]. specialize (IH (m + 1) ltac:(lia) ltac:(lia)).
    rewrite md_next in IH by lia. pose proof (dim_range y m). replace (m + Z.of_nat (S n)) with (m + 1 + Z.of_nat n) by lia. lia. }
  replace m2 with (m1 + 1 + Z.of_nat (Z.to_nat (m2 - (m1 + 1)))) by lia. apply X; lia.
Qed.

Lemma dn_inj y1 m1 d1 y2 m2 d2 : valid y1 m1 d1 -> valid y2 m2 d2 -> dn y1 m1 d1 = dn y2 m2 d2 -> (y1, m1, d1) = (y2, m2, d2).
Proof.
  intros (Y1 & M1 & D1) (Y2 & M2 & D2) E. unfold dn in E.
  assert (B : forall y m d, valid y m d -> 0 <= md (leap_year y) m + (d - 1) < ylen y).
  { intros y m d (Y & M & D). rewrite <- md_end by lia. pose proof (md_mono y m 13 ltac:(lia) ltac:(lia)).
    assert (0 <= md (leap_year y) m) by (months m X; destruct (leap_year y); vm_compute; discriminate). lia. }
  pose proof (B y1 m1 d1 ltac:(repeat split; lia)). pose proof (B y2 m2 d2 ltac:(repeat split; lia)).
  assert (y1 = y2). { destruct (Z.lt_trichotomy y1 y2) as [X|[X|X]]; [|exact X|]; [pose proof (yd_mono y1 y2)|pose proof (yd_mono y2 y1)]; lia. }
  subst y2. assert (m1 = m2). { destruct (Z.lt_trichotomy m1 m2) as [X|[X|X]]; [|exact X|]; [pose proof (md_mono y1 m1 m2)|pose proof (md_mono y1 m2 m1)]; lia. }
  subst m2. repeat f_equal. lia.
Qed.

(** ** The next day *)
Lemma year_div y : 1 <= y -> y / 4 - y / 100 + y / 400 = (y - 1) / 4 - (y - 1) / 100 + (y - 1) / 400 + (if leap_year y then 1 else 0).
Proof. intros H. unfold leap_year. destruct (Z.eqb_spec (y mod 100) 0); [destruct (Z.eqb_spec (y mod 400) 0)|destruct (Z.eqb_spec (y mod 4) 0)]; lia. Qed.
Lemma weekday_def y m d : 1970 <= y -> 1 <= m <= 12 -> 1 <= d -> weekday y m d =
  let M := if m <? 3 then m + 12 else m in let Y := if m <? 3 then y - 1 else y in
  (d + 1 + 2 * M + (3 * (M + 1)) / 5 + Y + (Y / 4 - Y / 100 + Y / 400)) mod 7.
Proof.
  intros Hy Hm Hd. unfold weekday. cbv zeta. rewrite Z.shiftr_div_pow2 by lia. change (2 ^ 2) with 4.
  rewrite !Z.quot_div_nonneg by (destruct (m <? 3); lia). rewrite Z.rem_mod_nonneg; [f_equal; lia| |lia].
  destruct (Z.ltb_spec m 3); lia.
Qed.
Lemma weekday_day y m d : valid y m d -> weekday y m (d + 1) = (if weekday y m d =? 6 then 0 else weekday y m d + 1).
Proof.
  intros (Y & M & D). rewrite !weekday_def by lia. cbv zeta.
  generalize ((if m <? 3 then y - 1 else y) / 4 - (if m <? 3 then y - 1 else y) / 100 + (if m <? 3 then y - 1 else y) / 400).
  intros q. generalize (if m <? 3 then y - 1 else y). intros Yy. generalize (3 * ((if m <? 3 then m + 12 else m) + 1) / 5). intros r.
  generalize (if m <? 3 then m + 12 else m). intros Mm. clear.
  replace (d + 1 + 1 + 2 * Mm + r + Yy + q) with (d + 1 + 2 * Mm + r + Yy + q + 1) by lia. generalize (d + 1 + 2 * Mm + r + Yy + q). intros z.
  destruct (Z.eqb_spec (z mod 7) 6); lia.
Qed.
Lemma weekday_month y m : 1970 <= y -> 1 <= m < 12 -> weekday y (m + 1) 1 = weekday y m (days_in_month y m + 1).
Proof.
  intros Hy Hm. pose proof (dim_range y m). rewrite !weekday_def by lia. cbv zeta.
  assert (C : m = 2 \/ m <> 2) by lia. destruct C as [->|C].
  - change (2 + 1 <? 3) with false. change (2 <? 3) with true. cbv iota. rewrite (year_div y) by lia. change (days_in_month y 2) with (if leap_year y then 29 else 28).
    generalize ((y - 1) / 4 - (y - 1) / 100 + (y - 1) / 400). intros q. destruct (leap_year y); change (3 * (2 + 1 + 1) / 5) with 2; change (3 * (2 + 12 + 1) / 5) with 9.
    all: clear; lia.
  - assert (E1 : (m + 1 <? 3) = (m <? 3)) by lia. rewrite E1.
    generalize ((if m <? 3 then y - 1 else y) / 4 - (if m <? 3 then y - 1 else y) / 100 + (if m <? 3 then y - 1 else y) / 400).
    intros q. generalize (if m <? 3 then y - 1 else y). intros Yy.
    months m X; try lia; match goal with |- context [days_in_month y ?k] => let v := eval cbv in (days_in_month 1 k) in change (days_in_month y k) with v end;
      repeat match goal with |- context [if ?a <? 3 then ?b else ?c] => let v := eval cbv in (a <? 3) in
        first [change (if a <? 3 then b else c) with b | change (if a <? 3 then b else c) with c] end; clear; lia.
Qed.
Lemma weekday_year y : 1970 <= y -> weekday (y + 1) 1 1 = weekday y 12 32.
Proof.
  intros H. rewrite !weekday_def by lia. cbv zeta. change (1 <? 3) with true. change (12 <? 3) with false. cbv iota.
  replace (y + 1 - 1) with y by lia. generalize (y / 4 - y / 100 + y / 400). intros q.
  change (3 * (1 + 12 + 1) / 5) with 8. change (3 * (12 + 1) / 5) with 7. clear. lia.
Qed.

Lemma next_day_ok y m d : valid y m d -> exists y' m' d', next_day (y, m, d, weekday y m d) = (y', m', d', weekday y' m' d') /\
  valid y' m' d' /\ dn y' m' d' = dn y m d + 1.
Proof.
  intros V. pose proof V as (Hy & Hm & Hd). pose proof (weekday_day _ _ _ V) as W. cbn [next_day].
  destruct (Z.ltb_spec d (days_in_month y m)).
  - exists y, m, (d + 1). rewrite W. split; [reflexivity|]. split; [repeat split; lia|]. unfold dn. lia.
  - assert (d = days_in_month y m) by lia. subst d. destruct (Z.ltb_spec m 12).
    + exists y, (m + 1), 1. rewrite weekday_month, W by lia. split; [reflexivity|]. split.
      * pose proof (dim_range y (m + 1)). repeat split; lia.
      * unfold dn. rewrite md_next by lia. lia.
    + assert (m = 12) by lia. subst m. exists (y + 1), 1, 1. change (days_in_month y 12) with 31 in *.
      rewrite weekday_year by lia. change 32 with (31 + 1). rewrite W. split; [reflexivity|]. split.
      * pose proof (dim_range (y + 1) 1). repeat split; lia.
      * unfold dn. rewrite yd_next, <- md_end by lia. change 13 with (12 + 1). rewrite md_next by lia. change (days_in_month y 12) with 31.
        assert (E0 : md (leap_year (y + 1)) 1 = 0) by (destruct (leap_year (y + 1)); reflexivity). lia.
Qed.

Lemma date_after_ok n : 0 <= n -> exists y m d, date_after n = (y, m, d, weekday y m d) /\ valid y m d /\ dn y m d = n.
Proof.
  intros H. rewrite <- (Z2Nat.id n H). unfold date_after. rewrite Nat2Z.id. generalize (Z.to_nat n). clear. intros k.
  induction k as [|k (y & m & d & E & V & D)]; cbn [Nat.iter nat_rect].
  - exists 1970, 1, 1. split; [reflexivity|]. split; [repeat split; vm_compute; discriminate|reflexivity].
  - change (nat_rect (fun _ => date) epoch (fun _ => next_day) k) with (Nat.iter k next_day epoch). rewrite E.
    destruct (next_day_ok y m d V) as (y' & m' & d' & E' & V' & D'). exists y', m', d'. rewrite E'. split; [reflexivity|]. split; [exact V'|lia].
Qed.

(** ** time2utc *)
Lemma year_loop_ok days : forall fuel y, 0 <= y -> yd (1970 + y) <= days -> (days - yd (1970 + y)) / 365 < Z.of_nat fuel ->
  exists y', year_loop fuel days (yd (1970 + y)) y = Some (yd (1970 + y'), y') /\ 0 <= y' /\ yd (1970 + y') <= days < yd (1970 + y') + ylen (1970 + y').
Proof.
  induction fuel as [|fuel IH]; intros y Hy Hd Hf.
  { exfalso. pose proof (Z.div_pos (days - yd (1970 + y)) 365). lia. }
  cbn [year_loop]. destruct (Z.leb_spec (yd (1970 + y) + ylen (1970 + y)) days).
  - rewrite <- yd_next in * by lia. replace (1970 + y + 1) with (1970 + (y + 1)) in * by lia. apply IH; [lia|lia|].
    replace (1970 + (y + 1)) with (1970 + y + 1) by lia. rewrite yd_next by lia.
    assert (365 <= ylen (1970 + y)) by (unfold ylen; destruct (is_leap _); lia).
    assert (days - (yd (1970 + y) + ylen (1970 + y)) <= days - yd (1970 + y) + (-1) * 365) by lia.
    assert ((days - (yd (1970 + y) + ylen (1970 + y))) / 365 <= (days - yd (1970 + y) + (-1) * 365) / 365) by (apply Z.div_le_mono; lia).
    rewrite Z.div_add in H2 by lia. lia.
  - exists y. split; [reflexivity|]. lia.
Qed.
Lemma month_loop_go y s : 0 <= y -> s < ylen y -> forall fuel m, 0 <= m <= 12 -> 12 - m < Z.of_nat fuel -> md (leap_year y) (m + 1) <= s ->
  exists m', month_loop fuel (is_leap y) s (md (leap_year y) (m + 1)) m = Some (md (leap_year y) (m' + 1), m') /\ 0 <= m' < 12 /\
  md (leap_year y) (m' + 1) <= s < md (leap_year y) (m' + 1) + days_in_month y (m' + 1).
Proof.
  intros Hy Hs. induction fuel as [|fuel IH]; intros m Hm Hf Hl; [lia|].
  destruct (Z.eq_dec m 12) as [->|Hm12]; [change (12 + 1) with 13 in Hl; rewrite md_end in Hl; lia|].
  cbn [month_loop]. pose proof (mon_days_ok y (m + 1) Hy ltac:(lia)) as Em. replace (m + 1 - 1) with m in Em by lia. rewrite Em. cbn [obind].
  destruct (Z.leb_spec (md (leap_year y) (m + 1) + days_in_month y (m + 1)) s).
  - rewrite <- md_next in * by lia. apply IH; lia.
  - exists m. split; [reflexivity|]. lia.
Qed.
Lemma month_loop_ok y s : 0 <= y -> 0 <= s < ylen y -> exists m, month_loop 13 (is_leap y) s 0 0 = Some (md (leap_year y) (m + 1), m) /\ 0 <= m < 12 /\
  md (leap_year y) (m + 1) <= s < md (leap_year y) (m + 1) + days_in_month y (m + 1).
Proof.
  intros Hy Hs. assert (E : md (leap_year y) (0 + 1) = 0) by (destruct (leap_year y); reflexivity).
  pose proof (month_loop_go y s Hy ltac:(lia) 13 0 ltac:(lia) ltac:(lia) ltac:(lia)) as X. rewrite E in X. exact X.
Qed.

Lemma time2utc_def t : 0 <= t -> exists y m d, valid y m d /\ dn y m d = t / 86400 /\
  time2utc t = Some (U y m d (t mod 86400 / 3600) (t mod 86400 mod 3600 / 60) (t mod 86400 mod 3600 mod 60) (weekday y m d)).
Proof.
  intros H. unfold time2utc. cbv zeta. rewrite (Z.quot_div_nonneg t) by lia. rewrite (Z.rem_mod_nonneg t) by lia.
  assert (Hd : 0 <= t / 86400) by (apply Z.div_pos; lia). generalize (t mod 86400) (Z.mod_pos_bound t 86400 ltac:(lia)). revert Hd. generalize (t / 86400). clear t H.
  intros n Hn s Hs.
  destruct (year_loop_ok n (S (Z.to_nat (n / 365))) 0 ltac:(lia)) as (y & E1 & Y1 & Y2).
  { change (yd (1970 + 0)) with 0. lia. }
  { change (yd (1970 + 0)) with 0. rewrite Z.sub_0_r. pose proof (Z.div_pos n 365). lia. }
  change (yd (1970 + 0)) with 0 in E1. rewrite E1. cbn [obind]. rewrite (Z.add_comm y 1970).
  destruct (month_loop_ok (1970 + y) (n - yd (1970 + y)) ltac:(lia) ltac:(lia)) as (m & E2 & M1 & M2). rewrite E2. cbn [obind].
  exists (1970 + y), (m + 1), (n - yd (1970 + y) - md (leap_year (1970 + y)) (m + 1) + 1).
  split; [repeat split; lia|]. split; [unfold dn; lia|].
  rewrite !Z.quot_div_nonneg, !Z.rem_mod_nonneg; try lia; try (apply Z.mod_pos_bound; lia); try reflexivity.
Qed.

Lemma utc2time_def u : 1970 <= year u -> 1 <= month u <= 12 ->
  utc2time u = Some (dn (year u) (month u) (day u) * 86400 + (hour u * 3600 + minute u * 60 + second u)).
Proof.
  intros Hy Hm. unfold utc2time. rewrite sum_months_ok by lia. cbn [obind]. unfold dn, yd. rewrite is_leap_ok by lia. f_equal. 
Qed.

(** ** The statements *)
Lemma hms s : 0 <= s < 86400 -> 0 <= s / 3600 < 24 /\ 0 <= s mod 3600 / 60 < 60 /\ 0 <= s mod 3600 mod 60 < 60 /\ s = s / 3600 * 3600 + s mod 3600 / 60 * 60 + s mod 3600 mod 60.
Proof. intros H. pose proof (Z.div_mod s 3600). pose proof (Z.mod_pos_bound s 3600). pose proof (Z.div_mod (s mod 3600) 60). pose proof (Z.mod_pos_bound (s mod 3600) 60).
  pose proof (Z.div_lt_upper_bound s 3600 24). pose proof (Z.div_pos s 3600). pose proof (Z.div_lt_upper_bound (s mod 3600) 60 60). pose proof (Z.div_pos (s mod 3600) 60). lia. Qed.

Lemma date_after_dn y m d n : valid y m d -> dn y m d = n -> 0 <= n -> date_after n = (y, m, d, weekday y m d).
Proof.
  intros V E H. destruct (date_after_ok n H) as (y' & m' & d' & E' & V' & D'). rewrite E'.
  assert (X : (y', m', d') = (y, m, d)) by (apply dn_inj; auto; lia). injection X as -> -> ->. reflexivity.
Qed.
Lemma dn_nonneg y m d : valid y m d -> 0 <= dn y m d.
Proof.
  intros (Y & M & D). unfold dn. assert (0 <= md (leap_year y) m) by (months m X; destruct (leap_year y); vm_compute; discriminate).
  assert (0 <= yd y). { destruct (Z.eq_dec y 1970) as [->|]; [vm_compute; discriminate|]. pose proof (yd_mono 1970 y ltac:(lia)). rewrite yd_1970 in *.
    unfold ylen in *. destruct (is_leap 1970); lia. } lia.
Qed.

Lemma time2utc_main t : 0 <= t -> exists u, time2utc t = Some u /\ moment u (t / 86400) (t mod 86400).
Proof.
  intros H. destruct (time2utc_def t H) as (y & m & d & V & D & E). eexists. split; [exact E|]. unfold moment, date_of. cbn [year month day hour minute second week].
  pose proof (hms (t mod 86400) (Z.mod_pos_bound t 86400 ltac:(lia))) as (A & B & C & F).
  split; [|split; [exact A|split; [exact B|split; [exact C|exact F]]]].
  symmetry. apply date_after_dn; [exact V|exact D|apply Z.div_pos; lia].
Qed.

Lemma moment_time u n s : 0 <= n -> moment u n s -> utc2time u = Some (n * 86400 + s).
Proof.
  intros H (E & _ & _ & _ & S). destruct (date_after_ok n H) as (y & m & d & E' & V & D). unfold date_of in E. rewrite E' in E.
  injection E as Ey Em Ed _. pose proof V as (Vy & Vm & Vd). rewrite utc2time_def by lia. rewrite Ey, Em, Ed, D, S. reflexivity.
Qed.
Lemma time_utc_time t : 0 <= t -> exists u, time2utc t = Some u /\ utc2time u = Some t.
Proof.
  intros H. destruct (time2utc_main t H) as (u & E & M). exists u. split; [exact E|].
  rewrite (moment_time u _ _ (Z.div_pos t 86400 H ltac:(lia)) M). f_equal. rewrite (Z.div_mod t 86400) at 3 by lia. lia.
Qed.
Lemma utc_time_utc u : 1970 <= year u -> in_range u -> exists t v, utc2time u = Some t /\ 0 <= t /\ time2utc t = Some v /\
  year v = year u /\ month v = month u /\ day v = day u /\ hour v = hour u /\ minute v = minute u /\ second v = second u.
Proof.
  intros Hy (Hm & Hd & Hh & Hi & Hs). set (n := dn (year u) (month u) (day u)). set (s := hour u * 3600 + minute u * 60 + second u).
  assert (V : valid (year u) (month u) (day u)) by (split; [lia|split; [lia|exact Hd]]).
  pose proof (dn_nonneg _ _ _ V) as N. fold n in N. assert (S : 0 <= s < 86400) by (unfold s; lia).
  exists (n * 86400 + s). destruct (time2utc_def (n * 86400 + s) ltac:(lia)) as (y & m & d & V' & D & E).
  assert (Q : (n * 86400 + s) / 86400 = n) by (rewrite Z.div_add_l, (Z.div_small s) by lia; lia).
  assert (R : (n * 86400 + s) mod 86400 = s) by (rewrite Z.add_comm, Z.mod_add, (Z.mod_small s) by lia; lia).
  rewrite Q in D. rewrite R in E. assert (X : (y, m, d) = (year u, month u, day u)) by (apply dn_inj; auto). injection X as -> -> ->.
  eexists. split; [rewrite utc2time_def by lia; reflexivity|]. split; [lia|]. split; [exact E|]. cbn [year month day hour minute second].
  assert (A1 : s / 3600 = hour u) by (unfold s; symmetry; apply Z.div_unique with (r := minute u * 60 + second u); lia).
  assert (A2 : s mod 3600 = minute u * 60 + second u) by (unfold s; symmetry; apply Z.mod_unique with (q := hour u); lia).
  rewrite A1, A2. assert (A3 : (minute u * 60 + second u) / 60 = minute u) by (symmetry; apply Z.div_unique with (r := second u); lia).
  assert (A4 : (minute u * 60 + second u) mod 60 = second u) by (symmetry; apply Z.mod_unique with (q := minute u); lia). repeat split; assumption.
Qed.

(** ** Adjusting a broken-down time *)
Lemma dn_carry y m d : 1970 <= y -> 1 <= m <= 12 ->
  let '(m', y') := if 12 <? m + 1 then (1, y + 1) else (m + 1, y) in dn y' m' (d - days_in_month y m) = dn y m d.
Proof.
  intros Hy Hm. destruct (Z.ltb_spec 12 (m + 1)).
  - assert (m = 12) by lia. subst m. unfold dn. rewrite yd_next, <- md_end by lia. change 13 with (12 + 1) at 1. rewrite md_next by lia.
    assert (E0 : md (leap_year (y + 1)) 1 = 0) by (destruct (leap_year (y + 1)); reflexivity). lia.
  - unfold dn. rewrite md_next by lia. lia.
Qed.
Lemma adjust_loop_ok : forall fuel d m y adj, 1970 <= y -> 1 <= m <= 12 -> 1 <= d -> d < Z.of_nat fuel ->
  exists d' m' y' adj', adjust_loop fuel d m y adj = Some (d', m', y', adj') /\ valid y' m' d' /\ dn y' m' d' = dn y m d /\
    (adj' = adj /\ d' = d /\ m' = m /\ y' = y \/ adj' = true).
Proof.
  induction fuel as [|fuel IH]; intros d m y adj Hy Hm Hd Hf; [lia|]. cbn [adjust_loop]. rewrite mon_days_ok by lia. cbn [obind].
  pose proof (dim_range y m). destruct (Z.ltb_spec (days_in_month y m) d).
  - pose proof (dn_carry y m d Hy Hm) as C. destruct (12 <? m + 1) eqn:E12.
    + destruct (IH (d - days_in_month y m) 1 (y + 1) true) as (d' & m' & y' & a' & E & V & D & K); [lia|lia|lia|lia|].
      exists d', m', y', a'. split; [exact E|]. split; [exact V|]. split; [lia|]. right. destruct K as [K|K]; tauto.
    + destruct (IH (d - days_in_month y m) (m + 1) y true) as (d' & m' & y' & a' & E & V & D & K); [lia|lia|lia|lia|].
      exists d', m', y', a'. split; [exact E|]. split; [exact V|]. split; [lia|]. right. destruct K as [K|K]; tauto.
  - exists d, m, y, adj. split; [reflexivity|]. split; [repeat split; lia|]. split; [reflexivity|]. left. auto.
Qed.

Lemma carry_ok b x : 0 < b -> 0 <= x -> exists r c, (if b <=? x then (Z.rem x b, Z.quot x b) else (x, 0)) = (r, c) /\ 0 <= r < b /\ 0 <= c /\ x = c * b + r.
Proof.
  intros Hb Hx. destruct (Z.leb_spec b x).
  - rewrite Z.rem_mod_nonneg, Z.quot_div_nonneg by lia. exists (x mod b), (x / b). split; [reflexivity|].
    pose proof (Z.mod_pos_bound x b Hb). pose proof (Z.div_pos x b Hx Hb). pose proof (Z.div_mod x b). lia.
  - exists x, 0. split; [reflexivity|]. lia.
Qed.

Lemma utc_adjust_ok u : 1970 <= year u -> 1 <= month u <= 12 -> 1 <= day u -> 0 <= hour u -> 0 <= minute u -> 0 <= second u ->
  exists v t, utc_adjust u = Some v /\ utc2time u = Some t /\ time2utc t = Some v.
Proof.
  intros Hy Hm Hd Hh Hi Hs. unfold utc_adjust.
  destruct (carry_ok 60 (second u) ltac:(lia) Hs) as (s & c1 & E1 & S1 & S2 & S3). rewrite E1.
  destruct (carry_ok 60 (minute u + c1) ltac:(lia) ltac:(lia)) as (mi & c2 & E2 & M1 & M2 & M3). rewrite E2.
  destruct (carry_ok 24 (hour u + c2) ltac:(lia) ltac:(lia)) as (h & c3 & E3 & H1 & H2 & H3). rewrite E3.
  destruct (adjust_loop_ok (S (Z.to_nat (day u + c3))) (day u + c3) (month u) (year u) false) as (d & m & y & a & E4 & V & D & K); [lia|lia|lia|lia|].
  rewrite E4. cbn [obind].
  assert (X : (if a then (m, y) else (month u, year u)) = (m, y)) by (destruct a; [reflexivity|]; destruct K as [(_ & _ & -> & ->)|K]; [reflexivity|discriminate]).
  rewrite X. pose proof V as (Vy & Vm & Vd). destruct (Z.leb_spec 12 (m - 1)); [lia|]. rewrite Z.add_0_r.
  eexists. exists (dn (year u) (month u) (day u) * 86400 + (hour u * 3600 + minute u * 60 + second u)). split; [reflexivity|].
  split; [apply utc2time_def; lia|].
  assert (T : dn (year u) (month u) (day u) * 86400 + (hour u * 3600 + minute u * 60 + second u) = dn y m d * 86400 + (h * 3600 + mi * 60 + s)).
  { rewrite D. unfold dn. lia. }
  rewrite T. destruct (utc_time_utc (U y m d h mi s 0)) as (t & v & E5 & T0 & E6 & Q1 & Q2 & Q3 & Q4 & Q5 & Q6); [exact Vy| |].
  { repeat split; cbn [year month day hour minute second]; lia. }
  rewrite utc2time_def in E5 by (cbn [year month]; lia). cbn [year month day hour minute second] in *. injection E5 as E5. rewrite E5.
  destruct (time2utc_def t T0) as (y' & m' & d' & V' & D' & E'). rewrite E6 in E'. injection E' as ->. cbn [year month day hour minute second] in *.
  subst y' m' d'. rewrite E6, Q4, Q5, Q6. reflexivity.
Qed.

(** ** Texts *)
Lemma digit_ok n : 0 <= n <= 9 -> Z.of_N (digit n) - 48 = n /\ isdigit (digit n) = true.
Proof. intros H. unfold digit, isdigit. lia. Qed.
Lemma isdigit_digit c : isdigit c = true -> 0 <= Z.of_N c - 48 <= 9 /\ digit (Z.of_N c - 48) = c.
Proof. unfold digit, isdigit. lia. Qed.
Lemma digits2_ok n : 0 <= n <= 99 -> exists a b, digits2 n = [a; b] /\ (Z.of_N a - 48) * 10 + (Z.of_N b - 48) = n /\ isdigit a = true /\ isdigit b = true.
Proof.
  intros H. exists (digit (n / 10)), (digit (n mod 10)). split; [reflexivity|].
  destruct (digit_ok (n / 10)) as [-> ->]; [lia|]. destruct (digit_ok (n mod 10)) as [-> ->]; [lia|]. split; [lia|auto].
Qed.
Lemma digits2_of a b : isdigit a = true -> isdigit b = true -> digits2 ((Z.of_N a - 48) * 10 + (Z.of_N b - 48)) = [a; b] /\ 0 <= (Z.of_N a - 48) * 10 + (Z.of_N b - 48) <= 99.
Proof.
  intros Ha Hb. apply isdigit_digit in Ha, Hb. destruct Ha as [Ha Ea], Hb as [Hb Eb]. split; [|lia]. unfold digits2.
  rewrite Z.div_add_l, Z.div_small by lia. rewrite Z.add_0_r, Ea. rewrite Z.add_comm, Z.mod_add, Z.mod_small, Eb by lia. reflexivity.
Qed.

(** The tail of [s2time], from the fields. *)
Definition s2fields (y m d h mi sec : Z) : option s2res :=
  if (y <? 1970) || (12 <? m) then Some S2Err
  else
    l <- mon_days (is_leap y) (m - 1) ;;
    if (l <? d) || (24 <=? h) || (60 <=? mi) || (60 <=? sec) then Some S2Err
    else
      ms <- sum_months (Z.to_nat (m - 1)) (is_leap y) ;;
      let d := d + add_years (Z.to_nat (y - 1970)) 1970 + ms - 1 in
      Some (S2Ok (d * 86400 + (h * 3600 + mi * 60 + sec))).
Definition num2 (a b : N) : Z := (Z.of_N a - 48) * 10 + (Z.of_N b - 48).
Definition num4 (a b c d : N) : Z := (Z.of_N a - 48) * 1000 + (Z.of_N b - 48) * 100 + (Z.of_N c - 48) * 10 + (Z.of_N d - 48).

Lemma s2time_short a b c d e f g h i j k l z : s2time [a; b; c; d; e; f; g; h; i; j; k; l; z] false =
  if isz z && forallb isdigit [a; b; c; d; e; f; g; h; i; j; k; l]
  then s2fields (if 50 <=? num2 a b then num2 a b + 1900 else num2 a b + 2000) (num2 c d) (num2 e f) (num2 g h) (num2 i j) (num2 k l)
  else Some S2Err.
Proof.
  unfold s2time. cbv zeta iota. cbn [length Nat.eqb negb Nat.sub nth firstn orb]. unfold isz.
  destruct (z =? 90)%N, (z =? 122)%N; cbn [orb andb negb]; try reflexivity; destruct (forallb isdigit _); reflexivity.
Qed.
Lemma s2time_long a' b' a b c d e f g h i j k l z : s2time [a'; b'; a; b; c; d; e; f; g; h; i; j; k; l; z] true =
  if isz z && forallb isdigit [a'; b'; a; b; c; d; e; f; g; h; i; j; k; l]
  then s2fields (num4 a' b' a b) (num2 c d) (num2 e f) (num2 g h) (num2 i j) (num2 k l)
  else Some S2Err.
Proof.
  unfold s2time. cbv zeta iota. cbn [length Nat.eqb negb Nat.sub nth firstn orb]. unfold isz.
  destruct (z =? 90)%N, (z =? 122)%N; cbn [orb andb negb]; try reflexivity; destruct (forallb isdigit _); reflexivity.
Qed.

Lemma s2fields_ok u : 1970 <= year u -> in_range u -> exists t, utc2time u = Some t /\
  s2fields (year u) (month u) (day u) (hour u) (minute u) (second u) = Some (S2Ok t).
Proof.
  intros Hy (Hm & Hd & Hh & Hi & Hs). unfold s2fields. rewrite mon_days_ok by lia. cbn [obind].
  replace ((year u <? 1970) || (12 <? month u)) with false by lia.
  replace ((days_in_month (year u) (month u) <? day u) || (24 <=? hour u) || (60 <=? minute u) || (60 <=? second u)) with false by lia.
  rewrite sum_months_ok by lia. cbn [obind]. rewrite add_years_ok by lia. rewrite yd_1970. replace (1970 + Z.of_nat (Z.to_nat (year u - 1970))) with (year u) by lia.
  rewrite utc2time_def by lia. eexists. split; [reflexivity|]. unfold dn. rewrite is_leap_ok by lia. do 2 f_equal. lia.
Qed.
Lemma s2fields_inv y m d h mi s t : 0 <= m -> 1 <= d -> 0 <= h -> 0 <= mi -> 0 <= s -> s2fields y m d h mi s = Some (S2Ok t) ->
  1970 <= y /\ in_range (U y m d h mi s 0) /\ utc2time (U y m d h mi s 0) = Some t.
Proof.
  intros Hm Hd Hh Hi Hs E. pose proof E as E0. unfold s2fields in E.
  destruct ((y <? 1970) || (12 <? m)) eqn:X1; [discriminate|].
  destruct (Z.eq_dec m 0) as [->|Hm0]; [cbn in E; discriminate|].
  rewrite mon_days_ok in E by lia. cbn [obind] in E.
  destruct ((days_in_month y m <? d) || (24 <=? h) || (60 <=? mi) || (60 <=? s)) eqn:X2; [discriminate|]. clear E.
  assert (R : in_range (U y m d h mi s 0)) by (repeat split; cbn [year month day hour minute second]; lia).
  split; [lia|]. split; [exact R|]. destruct (s2fields_ok (U y m d h mi s 0)) as (t' & T & E'); [cbn [year]; lia|exact R|].
  cbn [year month day hour minute second] in E'. rewrite E0 in E'. injection E' as ->. exact T.
Qed.

Lemma s2time_text gen u z : text_year gen (year u) -> in_range u -> isz z = true -> exists t, utc2time u = Some t /\ s2time (time_text gen u z) gen = Some (S2Ok t).
Proof.
  intros Hy R Hz. pose proof R as (Hm & Hd & Hh & Hi & Hs). pose proof (dim_range (year u) (month u)). unfold text_year in Hy.
  destruct (s2fields_ok u) as (t & T & E); [destruct gen; lia|exact R|]. exists t. split; [exact T|]. unfold time_text.
  destruct (digits2_ok (month u)) as (c & d & -> & Em & C & D); [lia|]. destruct (digits2_ok (day u)) as (e & f & -> & Ed & E1 & F); [lia|].
  destruct (digits2_ok (hour u)) as (g & h & -> & Eh & G & H1); [lia|]. destruct (digits2_ok (minute u)) as (i & j & -> & Ei & I & J); [lia|].
  destruct (digits2_ok (second u)) as (k & l & -> & Es & K & L); [lia|].
  destruct gen.
  - unfold digits4. destruct (digits2_ok (year u / 100)) as (a' & b' & -> & Ea' & A' & B'); [lia|].
    destruct (digits2_ok (year u mod 100)) as (a & b & -> & Ea & A & B); [lia|]. cbn [app]. rewrite s2time_long. cbn [forallb].
    rewrite Hz, A', B', A, B, C, D, E1, F, G, H1, I, J, K, L. cbn [andb]. unfold num2. rewrite Em, Ed, Eh, Ei, Es.
    replace (num4 a' b' a b) with (year u) by (unfold num4; lia). exact E.
  - destruct (digits2_ok (year u mod 100)) as (a & b & -> & Ea & A & B); [lia|]. cbn [app]. rewrite s2time_short. cbn [forallb].
    rewrite Hz, A, B, C, D, E1, F, G, H1, I, J, K, L. cbn [andb]. unfold num2. rewrite Em, Ed, Eh, Ei, Es, Ea.
    replace (if 50 <=? year u mod 100 then year u mod 100 + 1900 else year u mod 100 + 2000) with (year u); [exact E|].
    destruct (Z.leb_spec 50 (year u mod 100)); lia.
Qed.

Lemma s2time_len gen s t : s2time s gen = Some (S2Ok t) -> length s = if gen then 15%nat else 13%nat.
Proof. unfold s2time. destruct gen; cbv zeta; [destruct (Nat.eqb_spec (length s) 15)|destruct (Nat.eqb_spec (length s) 13)]; cbn [negb orb]; try discriminate; auto. Qed.

Lemma s2time_accepts gen s t : s2time s gen = Some (S2Ok t) -> day_text gen s <> [48; 48]%N ->
  exists u z, text_year gen (year u) /\ in_range u /\ isz z = true /\ s = time_text gen u z /\ utc2time u = Some t.
Proof.
  intros E Hd. pose proof (s2time_len _ _ _ E) as Len. destruct gen.
  - do 15 (destruct s as [|? s]; [discriminate Len|]). destruct s; [|discriminate Len]. clear Len.
    rewrite s2time_long in E. destruct (isz n13) eqn:Z; [|discriminate]. cbn [andb] in E. destruct (forallb isdigit _) eqn:F in E; [|discriminate].
    cbn [forallb] in F. rewrite !andb_true_iff in F. decompose [and] F. clear F. change ([n5; n6] <> [48; 48]%N) in Hd.
    assert (Hd' : num2 n5 n6 <> 0) by (intros X; apply Hd; unfold num2, isdigit in *; replace n5 with 48%N by lia; replace n6 with 48%N by lia; reflexivity). clear Hd.
    destruct (digits2_of n3 n4) as [Q1 R1]; auto. destruct (digits2_of n5 n6) as [Q2 R2]; auto. destruct (digits2_of n7 n8) as [Q3 R3]; auto.
    destruct (digits2_of n9 n10) as [Q4 R4]; auto. destruct (digits2_of n11 n12) as [Q5 R5]; auto.
    destruct (digits2_of n n0) as [Q6 R6]; auto. destruct (digits2_of n1 n2) as [Q7 R7]; auto.
    pose proof (isdigit_digit n) as I1. pose proof (isdigit_digit n0) as I2. pose proof (isdigit_digit n1) as I3. pose proof (isdigit_digit n2) as I4.
    apply s2fields_inv in E; unfold num2 in *; try lia. destruct E as (Y & R & T).
    eexists. exists n13. split; [|split; [exact R|split; [exact Z|split; [|exact T]]]]; cbn [year].
    + split; [lia|]. unfold num4. lia.
    + unfold time_text, digits4. cbn [year month day hour minute second]. rewrite Q1, Q2, Q3, Q4, Q5.
      replace (num4 n n0 n1 n2 / 100) with ((Z.of_N n - 48) * 10 + (Z.of_N n0 - 48)) by (unfold num4; lia).
      replace (num4 n n0 n1 n2 mod 100) with ((Z.of_N n1 - 48) * 10 + (Z.of_N n2 - 48)) by (unfold num4; lia).
      rewrite Q6, Q7. reflexivity.
  - do 13 (destruct s as [|? s]; [discriminate Len|]). destruct s; [|discriminate Len]. clear Len.
    rewrite s2time_short in E. destruct (isz n11) eqn:Z; [|discriminate]. cbn [andb] in E. destruct (forallb isdigit _) eqn:F in E; [|discriminate].
    cbn [forallb] in F. rewrite !andb_true_iff in F. decompose [and] F. clear F. change ([n3; n4] <> [48; 48]%N) in Hd.
    assert (Hd' : num2 n3 n4 <> 0) by (intros X; apply Hd; unfold num2, isdigit in *; replace n3 with 48%N by lia; replace n4 with 48%N by lia; reflexivity). clear Hd.
    destruct (digits2_of n1 n2) as [Q1 R1]; auto. destruct (digits2_of n3 n4) as [Q2 R2]; auto. destruct (digits2_of n5 n6) as [Q3 R3]; auto.
    destruct (digits2_of n7 n8) as [Q4 R4]; auto. destruct (digits2_of n9 n10) as [Q5 R5]; auto.
    destruct (digits2_of n n0) as [Q6 R6]; auto.
    apply s2fields_inv in E; unfold num2 in *; try lia. destruct E as (Y & R & T).
    eexists. exists n11. split; [|split; [exact R|split; [exact Z|split; [|exact T]]]]; cbn [year].
    + revert Y. destruct (Z.leb_spec 50 ((Z.of_N n - 48) * 10 + (Z.of_N n0 - 48))); unfold text_year; lia.
    + unfold time_text. cbn [year month day hour minute second]. rewrite Q1, Q2, Q3, Q4, Q5.
      replace ((if 50 <=? (Z.of_N n - 48) * 10 + (Z.of_N n0 - 48) then (Z.of_N n - 48) * 10 + (Z.of_N n0 - 48) + 1900 else (Z.of_N n - 48) * 10 + (Z.of_N n0 - 48) + 2000) mod 100)
        with ((Z.of_N n - 48) * 10 + (Z.of_N n0 - 48)) by (destruct (Z.leb_spec 50 ((Z.of_N n - 48) * 10 + (Z.of_N n0 - 48))); lia).
      rewrite Q6. reflexivity.
Qed.

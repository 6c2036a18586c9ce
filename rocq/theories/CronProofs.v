Require Import List Arith NArith ZArith Bool Lia.
Require Import ZifyBool ZifyNat ZifyN.
Require Import Verif.Base Verif.StrModel Verif.StrSpec Verif.StrProofs Verif.CalModel Verif.CalSpec Verif.CalProofs Verif.CronModel Verif.CronSpec.
Import ListNotations.
Open Scope Z_scope.

(** ** Times *)
Lemma time_fields t u : 0 <= t -> time2utc t = Some u -> minute u = t mod 3600 / 60 /\ hour u = t mod 86400 / 3600 /\ valid (year u) (month u) (day u) /\
  dn (year u) (month u) (day u) = t / 86400 /\ week u = weekday (year u) (month u) (day u) /\ utc2time u = Some t /\ second u = t mod 60.
Proof.
  intros H E. destruct (time2utc_def t H) as (y & m & d & V & D & E'). rewrite E in E'. injection E' as ->. cbn [minute hour second year month day week].
  assert (M : t mod 86400 mod 3600 = t mod 3600) by lia. rewrite M.
  split; [reflexivity|]. split; [reflexivity|]. split; [exact V|]. split; [exact D|]. split; [reflexivity|].
  split; [|lia].
  destruct (time_utc_time t H) as (u & E1 & E2). rewrite E in E1. injection E1 as <-. rewrite M in E2. exact E2.
Qed.
Lemma date_after_week n : 0 <= n -> snd (date_after n) = (n + 4) mod 7.
Proof.
  intros H. rewrite <- (Z2Nat.id n H). unfold date_after. rewrite Nat2Z.id. generalize (Z.to_nat n). clear. intros k.
  induction k as [|k IH]; [reflexivity|]. cbn [Nat.iter nat_rect]. change (nat_rect (fun _ => date) epoch (fun _ => next_day) k) with (Nat.iter k next_day epoch).
  destruct (Nat.iter k next_day epoch) as [[[y m] d] w]. cbn [snd] in IH. cbn [next_day].
  assert (X : (if w =? 6 then 0 else w + 1) = (Z.of_nat (S k) + 4) mod 7) by (rewrite IH; destruct (Z.eqb_spec ((Z.of_nat k + 4) mod 7) 6); lia).
  rewrite X. destruct (d <? days_in_month y m); [reflexivity|]. destruct (m <? 12); reflexivity.
Qed.
Lemma time_week t u : 0 <= t -> time2utc t = Some u -> week u = (t / 86400 + 4) mod 7.
Proof.
  intros H E. destruct (time2utc_main t H) as (u' & E' & M & _). rewrite E in E'. injection E' as <-.
  rewrite <- date_after_week by (apply Z.div_pos; lia). rewrite <- M. reflexivity.
Qed.

(** Changing one field and adjusting moves the time. *)
Lemma adjust_move u v t : 0 <= t -> time2utc t = Some u -> year v = year u -> month v = month u -> 1 <= day v -> 0 <= hour v -> 0 <= minute v -> second v = second u ->
  let t' := t + 86400 * (day v - day u) + 3600 * (hour v - hour u) + 60 * (minute v - minute u) in
  0 <= t' -> exists w, utc_adjust v = Some w /\ time2utc t' = Some w /\ utc2time w = Some t'.
Proof.
  intros H E Ey Em Hd Hh Hi Es t' Ht'. destruct (time_fields t u H E) as (Fi & Fh & Fv & Fd & Fw & Ft & Fs). pose proof Fv as (Vy & Vm & Vd).
  destruct (utc_adjust_ok v) as (w & t2 & A & B & C); try lia.
  assert (T : t2 = t'). { rewrite utc2time_def in B, Ft by lia. injection B as B. injection Ft as Ft. unfold dn in B, Ft. rewrite Ey, Em, Es in B. subst t'. lia. }
  subst t2. exists w. split; [exact A|]. split; [exact C|]. destruct (time_fields t' w Ht' C) as (_ & _ & _ & _ & _ & X & _). exact X.
Qed.

Lemma time_day t u v : 0 <= t -> time2utc t = Some u -> 1 <= v <= 28 ->
  exists w, time2utc (t + 86400 * ((if v <? day u then v + days_in_month (year u) (month u) else v) - day u)) = Some w /\ day w = v /\
    0 <= t + 86400 * ((if v <? day u then v + days_in_month (year u) (month u) else v) - day u) /\
    (day u <= (if v <? day u then v + days_in_month (year u) (month u) else v)).
Proof.
  intros H E Hv. destruct (time_fields t u H E) as (_ & _ & V & D & _). pose proof V as (Vy & Vm & Vd). pose proof (dim_range (year u) (month u)) as R.
  set (x := if v <? day u then v + days_in_month (year u) (month u) else v).
  assert (Hx : day u <= x) by (unfold x; destruct (Z.ltb_spec v (day u)); lia).
  assert (Ht : 0 <= t + 86400 * (x - day u)) by lia.
  destruct (time2utc_main _ Ht) as (w & Ew & Mw & _). exists w. split; [exact Ew|]. split; [|split; [exact Ht|exact Hx]].
  assert (Q : (t + 86400 * (x - day u)) / 86400 = t / 86400 + (x - day u)) by (rewrite (Z.mul_comm 86400), Z.div_add by lia; lia).
  rewrite Q, <- D in Mw.
  assert (X : exists y m, valid y m v /\ dn y m v = dn (year u) (month u) (day u) + (x - day u)).
  { unfold x. destruct (Z.ltb_spec v (day u)).
    - pose proof (dn_carry (year u) (month u) (v + days_in_month (year u) (month u)) Vy Vm) as C. destruct (12 <? month u + 1) eqn:E12.
      + exists (year u + 1), 1. replace (v + days_in_month (year u) (month u) - days_in_month (year u) (month u)) with v in C by lia.
        split; [pose proof (dim_range (year u + 1) 1); repeat split; lia|]. rewrite C. unfold dn. lia.
      + exists (year u), (month u + 1). replace (v + days_in_month (year u) (month u) - days_in_month (year u) (month u)) with v in C by lia.
        split; [pose proof (dim_range (year u) (month u + 1)); repeat split; lia|]. rewrite C. unfold dn. lia.
    - exists (year u), (month u). split; [repeat split; lia|]. unfold dn. lia. }
  destruct X as (y & m & Vv & Dv). rewrite (date_after_dn y m v _ Vv Dv) in Mw by (rewrite <- Dv; apply dn_nonneg; exact Vv).
  unfold date_of in Mw. injection Mw as _ _ Mw _. exact Mw.
Qed.

Lemma time_days t u w k : 0 <= t -> time2utc t = Some u -> 0 <= k -> time2utc (t + 86400 * k) = Some w -> day u + k - days_in_month (year u) (month u) <= 28 ->
  day w = if day u + k <=? days_in_month (year u) (month u) then day u + k else day u + k - days_in_month (year u) (month u).
Proof.
  intros H E Hk Ew Hx. destruct (time_fields t u H E) as (_ & _ & V & D & _). pose proof V as (Vy & Vm & Vd). pose proof (dim_range (year u) (month u)) as R.
  set (v := if day u + k <=? days_in_month (year u) (month u) then day u + k else day u + k - days_in_month (year u) (month u)).
  destruct (time2utc_main (t + 86400 * k) ltac:(lia)) as (w' & Ew' & Mw & _). rewrite Ew in Ew'. injection Ew' as <-.
  assert (Q : (t + 86400 * k) / 86400 = t / 86400 + k) by (rewrite (Z.mul_comm 86400), Z.div_add by lia; lia). rewrite Q, <- D in Mw.
  assert (X : exists y m, valid y m v /\ dn y m v = dn (year u) (month u) (day u) + k).
  { unfold v. destruct (Z.leb_spec (day u + k) (days_in_month (year u) (month u))).
    - exists (year u), (month u). split; [repeat split; lia|]. unfold dn. lia.
    - pose proof (dn_carry (year u) (month u) (day u + k) Vy Vm) as C. destruct (12 <? month u + 1) eqn:E12.
      + exists (year u + 1), 1. split; [pose proof (dim_range (year u + 1) 1); repeat split; lia|]. rewrite C. unfold dn. lia.
      + exists (year u), (month u + 1). split; [pose proof (dim_range (year u) (month u + 1)); repeat split; lia|]. rewrite C. unfold dn. lia. }
  destruct X as (y & m & Vv & Dv). rewrite (date_after_dn y m v _ Vv Dv) in Mw by (rewrite <- Dv; apply dn_nonneg; exact Vv).
  unfold date_of in Mw. injection Mw as _ _ Mw _. exact Mw.
Qed.

(** ** Fields *)
Lemma atol_dec n : 0 <= n <= 99 -> atol (dec n) = n /\ Forall (fun c => isdigit c = true) (dec n) /\ dec n <> [] /\ (length (dec n) <= 2)%nat /\ (n < 10 -> length (dec n) = 1%nat).
Proof.
  intros H. assert (D : forall k, 0 <= k <= 9 -> Z.of_N (Z.to_N (48 + k)) - 48 = k /\ isdigit (Z.to_N (48 + k)) = true /\ is_blank (Z.to_N (48 + k)) = false /\ (Z.to_N (48 + k) =? 45)%N = false /\ (Z.to_N (48 + k) =? 43)%N = false)
    by (intros k Hk; unfold isdigit, is_blank; lia).
  unfold dec. destruct (Z.ltb_spec n 10).
  - destruct (D n ltac:(lia)) as (A & B & C & E & F). unfold atol. cbn [skip_blank]. rewrite C, E, F. cbn [atol_digits]. rewrite B, A. split; [lia|].
    split; [constructor; auto|]. split; [discriminate|]. split; [cbn; lia|reflexivity].
  - destruct (D (n / 10) ltac:(lia)) as (A & B & C & E & F). destruct (D (n mod 10) ltac:(lia)) as (A' & B' & _).
    unfold atol. cbn [skip_blank]. rewrite C, E, F. cbn [atol_digits]. rewrite B, B', A, A'. split; [lia|].
    split; [constructor; auto|]. split; [discriminate|]. split; [cbn; lia|lia].
Qed.

Lemma loop_digits r cur period : forall ds save tok s, Forall (fun c => isdigit c = true) ds ->
  field_loop r cur period save tok (ds ++ s) = field_loop r cur period save (tok ++ ds) s.
Proof.
  induction ds as [|c ds IH]; intros save tok s F; [rewrite app_nil_r; reflexivity|]. inversion F as [|? ? Fc Fd]; subst. cbn [app field_loop].
  replace (c =? 44)%N with false by (unfold isdigit in Fc; lia). replace (c =? 42)%N with false by (unfold isdigit in Fc; lia). rewrite Fc, IH by exact Fd.
  rewrite <- app_assoc. reflexivity.
Qed.

Definition cand (cur turn v : Z) : Z := if v <? cur then v + turn else v.
(** The nearest value kept is one of the candidates. *)
Definition picks (r : rule) (cur : Z) (ok : Z -> Prop) : Prop :=
  forall save v, ok v -> pick r 0 save v = v \/ (save <> 0 /\ pick r 0 save v = save).

(** No candidate is below it, if zero does not come first. *)
Definition nearest (r : rule) (cur : Z) (ok : Z -> Prop) : Prop :=
  forall save v, ok v -> cur <= v -> (save <> 0 -> cur <= save) -> pick r 0 save v <= v /\ (save <> 0 -> pick r 0 save v <= save).

Lemma loop_list r cur (ok : Z -> Prop) : picks r cur ok -> seven r = false \/ val_hi r <= 7 -> val_hi r <= 99 -> (digits r = 2%nat \/ digits r = 1%nat /\ val_hi r <= 10) -> 0 <= end_lo r -> 0 <= mid_lo r ->
  forall l save, l <> [] -> Forall (fun x => end_lo r <= x < val_hi r) l -> Forall (fun x => mid_lo r <= x) (removelast l) ->
    Forall (fun x => ok (cand cur (turn r) x)) l ->
    exists z, field_loop r cur 0 save [] (sep_by 44%N (map dec l)) = z /\ (z = save /\ save <> 0 \/ exists x, In x l /\ z = cand cur (turn r) x) /\
      (nearest r cur ok -> cur <= turn r + end_lo r -> (save <> 0 -> cur <= save) -> Forall (fun x => cand cur (turn r) x <> 0) (removelast l) ->
       (forall x, In x l -> z <= cand cur (turn r) x) /\ (save <> 0 -> z <= save)).
Proof.
  intros P S7 V99 Dg E0 M0. induction l as [|x l IH]; intros save Hn F1 F2 F3; [congruence|].
  inversion F1 as [|? ? X1 F1']; subst. inversion F3 as [|? ? X3 F3']; subst.
  destruct (atol_dec x ltac:(lia)) as (A & B & C & D & D1).
  assert (Dl : (digits r <? length (dec x))%nat = false) by (destruct Dg as [->|[-> Hv]]; [lia|specialize (D1 ltac:(lia)); lia]).
  destruct l as [|y l].
  - cbn [map sep_by]. rewrite <- (app_nil_r (dec x)), loop_digits by exact B. cbn [app field_loop].
    destruct (dec x) as [|c ds] eqn:Ex; [congruence|]. rewrite <- Ex in *. rewrite Dl, A.
    assert (S : (if seven r && (x =? 7) then 0 else x) = x) by (destruct S7 as [->|S7]; [reflexivity|]; replace (x =? 7) with false by lia; rewrite andb_false_r; reflexivity).
    rewrite S. unfold value_ok. replace ((end_lo r <=? x) && (x <? val_hi r)) with true by lia. cbn [negb].
    eexists. split; [reflexivity|]. fold (cand cur (turn r) x). split.
    + destruct (P save (cand cur (turn r) x) X3) as [->|[Q ->]].
      * right. exists x. split; [left; reflexivity|reflexivity].
      * left. auto.
    + intros Nr Ht Hs _. destruct (Nr save (cand cur (turn r) x) X3) as (N1 & N2); [unfold cand; destruct (Z.ltb_spec x cur); lia | exact Hs|].
      split; [|exact N2]. intros y [<-|[]]. exact N1.
  - cbn [map]. change (sep_by 44%N (dec x :: dec y :: map dec l)) with (dec x ++ 44%N :: sep_by 44%N (map dec (y :: l))).
    rewrite loop_digits by exact B. cbn [app]. set (rest := sep_by 44%N (map dec (y :: l))) in *. cbn [field_loop]. change ((44 =? 44)%N) with true. cbv iota.
    destruct (dec x) as [|c ds] eqn:Ex; [congruence|]. rewrite <- Ex in *. rewrite Dl, A.
    change (removelast (x :: y :: l)) with (x :: removelast (y :: l)) in F2. inversion F2 as [|? ? X2 F2']; subst.
    unfold value_ok. replace ((mid_lo r <=? x) && (x <? val_hi r)) with true by lia. cbn [negb]. fold (cand cur (turn r) x).
    destruct (IH (pick r 0 save (cand cur (turn r) x))) as (z & Ez & Kz & Nz); [discriminate|exact F1'|exact F2'|exact F3'|].
    exists z. split; [exact Ez|]. split; [|intros Nr Ht Hs Fz; change (removelast (x :: y :: l)) with (x :: removelast (y :: l)) in Fz; inversion Fz as [|? ? Fx Fz']; subst;
      assert (Cx : cur <= cand cur (turn r) x) by (unfold cand; destruct (Z.ltb_spec x cur); lia);
      destruct (Nr save (cand cur (turn r) x) X3 Cx Hs) as (N1 & N2);
      assert (Pz : pick r 0 save (cand cur (turn r) x) <> 0) by (destruct (P save (cand cur (turn r) x) X3) as [->|[Q ->]]; assumption);
      assert (Pc : cur <= pick r 0 save (cand cur (turn r) x)) by (destruct (P save (cand cur (turn r) x) X3) as [->|[Q ->]]; auto);
      destruct (Nz Nr Ht (fun _ => Pc) Fz') as (Z1 & Z2); specialize (Z2 Pz); split;
      [intros y' [<-|Y]; [lia | apply Z1; exact Y] | intros S0; specialize (N2 S0); lia]].
    destruct Kz as [[-> K]|(x' & I & ->)].
    + destruct (P save (cand cur (turn r) x) X3) as [R|[Q R]]; rewrite R in *.
      * right. exists x. split; [left; reflexivity|reflexivity].
      * left. auto.
    + right. exists x'. split; [right; exact I|reflexivity].
Qed.

Lemma no_slash s : Forall (fun c => isdigit c = true \/ c = 44%N) s -> last_slash s = None.
Proof.
  induction 1 as [|c s Hc F IH]; [reflexivity|]. cbn [last_slash]. rewrite IH. replace (c =? 47)%N with false; [reflexivity|].
  unfold isdigit in Hc. lia.
Qed.
Lemma sep_chars l : Forall (fun x => 0 <= x <= 99) l -> Forall (fun c => isdigit c = true \/ c = 44%N) (sep_by 44%N (map dec l)).
Proof.
  induction 1 as [|x l Hx F IH]; [constructor|]. destruct (atol_dec x Hx) as (_ & B & _ & _).
  assert (B' : Forall (fun c => isdigit c = true \/ c = 44%N) (dec x)) by (revert B; apply Forall_impl; auto).
  destruct l as [|y l]; [exact B'|]. change (sep_by 44%N (map dec (x :: y :: l))) with (dec x ++ 44%N :: sep_by 44%N (map dec (y :: l))).
  apply Forall_app. split; [exact B'|]. constructor; [right; reflexivity|exact IH].
Qed.

Lemma parse_list r cur alone (ok : Z -> Prop) l : picks r cur ok -> seven r = false \/ val_hi r <= 7 -> val_hi r <= 99 -> (digits r = 2%nat \/ digits r = 1%nat /\ val_hi r <= 10) -> 0 <= end_lo r -> 0 <= mid_lo r ->
  l <> [] -> Forall (fun x => end_lo r <= x < val_hi r) l -> Forall (fun x => mid_lo r <= x) (removelast l) ->
  Forall (fun x => ok (cand cur (turn r) x)) l ->
  exists x, In x l /\ parse_field r cur alone (sep_by 44%N (map dec l)) = cand cur (turn r) x /\
    (nearest r cur ok -> cur <= turn r + end_lo r -> Forall (fun x => cand cur (turn r) x <> 0) (removelast l) -> forall y, In y l -> cand cur (turn r) x <= cand cur (turn r) y).
Proof.
  intros P S7 V99 Dg E0 M0 Hn F1 F2 F3.
  destruct (loop_list r cur ok P S7 V99 Dg E0 M0 l 0 Hn F1 F2 F3) as (z & Ez & [[_ K]|(x & I & ->)] & Nz); [congruence|].
  exists x. split; [exact I|]. split; [|intros Nr Ht Fz; apply (Nz Nr Ht); [congruence | exact Fz]]. rewrite <- Ez.
  assert (Ch : Forall (fun c => isdigit c = true \/ c = 44%N) (sep_by 44%N (map dec l))) by (apply sep_chars; revert F1; apply Forall_impl; intros; lia).
  unfold parse_field. rewrite no_slash by exact Ch.
  destruct (sep_by 44%N (map dec l)) as [|c s] eqn:Es.
  { exfalso. destruct l as [|a l]; [congruence|]. inversion F1; subst. destruct (atol_dec a ltac:(lia)) as (_ & _ & C & _). destruct l as [|b l]; cbn [map sep_by] in Es; [congruence|].
    destruct (dec a); [congruence|discriminate]. }
  assert (X : match s with [] => (c =? 42)%N | _ => false end = false).
  { destruct s; [|reflexivity]. inversion Ch as [|? ? Hc _]; subst. unfold isdigit in Hc. lia. }
  destruct s; [rewrite X|]; reflexivity.
Qed.

Lemma picks_minute a b c d e f g h k min : picks (Rule a b c d e f g h (pick_minute min) k) min (fun v => v <> min).
Proof.
  intros save v Hv. cbn [pick]. unfold pick_minute. destruct (Z.eqb_spec save 0); [left; destruct (Z.eqb_spec min v); [congruence|reflexivity]|].
  destruct (Z.eqb_spec min v); [congruence|]. destruct (_ || _); auto.
Qed.
Lemma picks_other a b c d e f g h k cur : picks (Rule a b c d e f g h (pick_other cur true) k) cur (fun v => True).
Proof.
  intros save v _. cbn [pick]. unfold pick_other. destruct (Z.eqb_spec save 0); [left; rewrite andb_false_r; reflexivity|].
  destruct (Z.eqb_spec v cur); [auto|]. destruct (_ <? _); auto.
Qed.

Lemma nearest_minute a b c d e f g h k min : nearest (Rule a b c d e f g h (pick_minute min) k) min (fun v => v <> min).
Proof.
  intros save v Hv Hc Hs. cbn [pick]. unfold pick_minute. destruct (Z.eqb_spec save 0); [destruct (Z.eqb_spec min v); lia|].
  destruct (Z.eqb_spec v min); [congruence|]. cbn [andb orb]. destruct (Z.eqb_spec min v); [congruence|]. destruct (Z.ltb_spec (v - min) (save - min)); lia.
Qed.
Lemma nearest_other a b c d e f g h k cur : nearest (Rule a b c d e f g h (pick_other cur true) k) cur (fun v => True).
Proof.
  intros save v _ Hc Hs. cbn [pick]. unfold pick_other. destruct (Z.eqb_spec save 0); [rewrite andb_false_r; lia|].
  destruct (Z.eqb_spec v cur); [lia|]. destruct (Z.ltb_spec (v - cur) (save - cur)); lia.
Qed.

(** The five functions on the text of a field. *)
Lemma removelast_Forall {A} (P : A -> Prop) l : Forall P l -> Forall P (removelast l).
Proof. induction 1 as [|x l Hx F IH]; [constructor|]. destruct l; [constructor|]. change (Forall P (x :: removelast (a :: l))). constructor; assumption. Qed.
Lemma removelast_in {A} (x : A) l : In x (removelast l) -> In x l.
Proof. induction l as [|a l IH]; [auto|]. destruct l; [intros []|]. change (In x (a :: removelast (a0 :: l)) -> In x (a :: a0 :: l)). intros [->|X]; [left; reflexivity | right; apply IH; exact X]. Qed.
Lemma minute_field f min : 0 <= min < 60 -> within f 0 59 -> zero_last f -> (f = Any \/ ~ holds f min) ->
  min < parse_minute (field_text f) min < min + 60 /\
  (f = Any /\ parse_minute (field_text f) min = min + 1 \/ (exists x, holds f x /\ 0 <= x < 60 /\ (parse_minute (field_text f) min = x \/ parse_minute (field_text f) min = x + 60)) /\
    forall y, holds f y -> parse_minute (field_text f) min <= cand min 60 y).
Proof.
  intros Hm W Z0 Hf. destruct f as [|l].
  - split; [unfold parse_minute, parse_field; cbn; lia|left; split; reflexivity].
  - destruct W as [Hn W]. destruct Hf as [Hf|Hf]; [discriminate|]. cbn [holds] in Hf. cbn [field_text]. unfold parse_minute.
    destruct (parse_list (Rule 1 60 1 0 60 2 60 false (pick_minute min) (fun p => min + step_of p)) min (min + 1) (fun v => v <> min) l) as (x & I & E & Ne);
      cbn [seven val_hi digits end_lo mid_lo turn]; try lia; auto.
    + apply picks_minute.
    + revert W. apply Forall_impl. intros; lia.
    + apply Forall_forall. intros x Hx. cbn [zero_last] in Z0. pose proof (removelast_Forall _ _ W) as W'. rewrite Forall_forall in W'. specialize (W' x Hx).
      assert (x <> 0) by (intros ->; contradiction). lia.
    + apply Forall_forall. intros x Hx. rewrite Forall_forall in W. specialize (W x Hx). unfold cand. assert (x <> min) by (intros ->; contradiction).
      destruct (Z.ltb_spec x min); lia.
    + rewrite E. cbn [turn]. rewrite Forall_forall in W. pose proof (W x I) as Wx. assert (x <> min) by (intros ->; contradiction).
      split; [unfold cand; destruct (Z.ltb_spec x min); lia|]. right. split.
      * exists x. unfold cand. cbn [holds]. split; [exact I|]. split; [lia|]. destruct (Z.ltb_spec x min); lia.
      * intros y Y. cbn [holds] in Y. cbn [turn end_lo] in Ne. apply Ne; [apply nearest_minute | lia | | exact Y].
        apply Forall_forall. intros y' Y'. cbn [zero_last] in Z0. assert (y' <> 0) by (intros ->; contradiction). assert (Wy : In y' l) by (eapply removelast_in; exact Y'). apply W in Wy. unfold cand. destruct (Z.ltb_spec y' min); lia.
Qed.
Lemma hour_field f cur : 0 <= cur < 24 -> within f 0 23 -> zero_last f ->
  cur <= parse_hour (field_text f) cur true /\ (f = Any /\ parse_hour (field_text f) cur true = cur \/
    (exists x, holds f x /\ 0 <= x < 24 /\ parse_hour (field_text f) cur true = cand cur 24 x) /\ (zero_last f -> forall y, holds f y -> parse_hour (field_text f) cur true <= cand cur 24 y)).
Proof.
  intros Hm W Z0. destruct f as [|l].
  - split; [unfold parse_hour, parse_field; cbn; lia|left; split; reflexivity].
  - destruct W as [Hn W]. cbn [field_text]. unfold parse_hour.
    destruct (parse_list (Rule 1 24 1 0 24 2 24 false (pick_other cur true) (fun p => if true then cur else cur + step_of p)) cur cur (fun v => True) l) as (x & I & E & Ne);
      cbn [seven val_hi digits end_lo mid_lo turn]; try lia; auto.
    + apply picks_other.
    + revert W. apply Forall_impl. intros; lia.
    + apply Forall_forall. intros x Hx. cbn [zero_last] in Z0. pose proof (removelast_Forall _ _ W) as W'. rewrite Forall_forall in W'. specialize (W' x Hx).
      assert (x <> 0) by (intros ->; contradiction). lia.
    + apply Forall_forall. auto.
    + rewrite E. cbn [turn]. rewrite Forall_forall in W. pose proof (W x I) as Wx.
      split; [unfold cand; destruct (Z.ltb_spec x cur); lia|]. right. split; [exists x; cbn [holds]; split; [exact I|]; split; [lia|reflexivity]|].
      intros Z1 y Y. cbn [holds] in Y. cbn [turn end_lo] in Ne. apply Ne; [apply nearest_other | lia | | exact Y].
      apply Forall_forall. intros y' Y'. cbn [zero_last] in Z1. assert (y' <> 0) by (intros ->; contradiction). assert (Wy : In y' l) by (eapply removelast_in; exact Y'). apply W in Wy. unfold cand. destruct (Z.ltb_spec y' cur); lia.
Qed.
Lemma day_field f cur mdays : 1 <= cur <= mdays -> within f 1 28 ->
  cur <= parse_day (field_text f) mdays cur true /\ (f = Any /\ parse_day (field_text f) mdays cur true = cur \/
    (exists x, holds f x /\ 1 <= x <= 28 /\ parse_day (field_text f) mdays cur true = cand cur mdays x) /\ (zero_last f -> forall y, holds f y -> parse_day (field_text f) mdays cur true <= cand cur mdays y)).
Proof.
  intros Hm W. destruct f as [|l].
  - split; [unfold parse_day, parse_field; cbn; lia|left; split; reflexivity].
  - destruct W as [Hn W]. cbn [field_text]. unfold parse_day.
    destruct (parse_list (Rule 1 32 1 1 32 2 mdays false (pick_other cur true) (fun p => if true then cur else cur + step_of p)) cur cur (fun v => True) l) as (x & I & E & Ne);
      cbn [seven val_hi digits end_lo mid_lo turn]; try lia; auto.
    + apply picks_other.
    + revert W. apply Forall_impl. intros; lia.
    + apply removelast_Forall. revert W. apply Forall_impl. intros; lia.
    + apply Forall_forall. auto.
    + rewrite E. cbn [turn]. rewrite Forall_forall in W. pose proof (W x I) as Wx.
      split; [unfold cand; destruct (Z.ltb_spec x cur); lia|]. right. split; [exists x; cbn [holds]; split; [exact I|]; split; [lia|reflexivity]|].
      intros Z1 y Y. cbn [holds] in Y. cbn [turn end_lo] in Ne. apply Ne; [apply nearest_other | lia | | exact Y].
      apply Forall_forall. intros y' Y'. cbn [zero_last] in Z1. assert (y' <> 0) by (intros ->; contradiction). assert (Wy : In y' l) by (eapply removelast_in; exact Y'). apply W in Wy. unfold cand. destruct (Z.ltb_spec y' cur); lia.
Qed.
Lemma week_field f cur : 0 <= cur < 7 -> within f 0 6 ->
  cur <= parse_week (field_text f) cur true /\ (f = Any /\ parse_week (field_text f) cur true = cur \/
    (exists x, holds f x /\ 0 <= x < 7 /\ parse_week (field_text f) cur true = cand cur 7 x) /\ (zero_last f -> forall y, holds f y -> parse_week (field_text f) cur true <= cand cur 7 y)).
Proof.
  intros Hm W. destruct f as [|l].
  - split; [unfold parse_week, parse_field; cbn; lia|left; split; reflexivity].
  - destruct W as [Hn W]. cbn [field_text]. unfold parse_week.
    destruct (parse_list (Rule 0 7 0 0 7 1 7 true (pick_other cur true) (fun p => if true then cur else cur + step_of p)) cur cur (fun v => True) l) as (x & I & E & Ne);
      cbn [seven val_hi digits end_lo mid_lo turn]; try lia; auto.
    + apply picks_other.
    + revert W. apply Forall_impl. intros; lia.
    + apply removelast_Forall. revert W. apply Forall_impl. intros; lia.
    + apply Forall_forall. auto.
    + rewrite E. cbn [turn]. rewrite Forall_forall in W. pose proof (W x I) as Wx.
      split; [unfold cand; destruct (Z.ltb_spec x cur); lia|]. right. split; [exists x; cbn [holds]; split; [exact I|]; split; [lia|reflexivity]|].
      intros Z1 y Y. cbn [holds] in Y. cbn [turn end_lo] in Ne. apply Ne; [apply nearest_other | lia | | exact Y].
      apply Forall_forall. intros y' Y'. cbn [zero_last] in Z1. assert (y' <> 0) by (intros ->; contradiction). assert (Wy : In y' l) by (eapply removelast_in; exact Y'). apply W in Wy. unfold cand. destruct (Z.ltb_spec y' cur); lia.
Qed.

(** ** The whole expression *)
Lemma cron_fields_ok c base : 0 <= base -> well_formed c -> within (f_day c) 1 28 -> f_month c = Any -> (f_day c = Any \/ f_week c = Any) ->
  zero_last (f_minute c) -> zero_last (f_hour c) -> (f_minute c = Any \/ ~ holds (f_minute c) (base mod 3600 / 60)) ->
  exists r u, cron_fields (map field_text [f_minute c; f_hour c; f_day c; f_month c; f_week c]) base = Some r /\ base < r /\ time2utc r = Some u /\ cron_matches c u /\
    (zero_last (f_week c) -> none_before c base r 86400) /\ (f_day c = Any -> f_week c = Any -> none_before c base r 3600) /\
    (f_hour c = Any -> f_day c = Any -> f_week c = Any -> none_before c base r 60).
Proof.
  intros Hb (Wm & Wh & _ & _ & Ww) Wd Mo DW Zm Zh Hmin. unfold cron_fields. cbn [map nth].
  destruct (time2utc_main base Hb) as (u0 & E0 & _). rewrite E0. cbn [obind].
  destruct (time_fields base u0 Hb E0) as (F0i & F0h & F0v & F0d & F0w & F0t & F0s). rewrite <- F0i in Hmin.
  destruct (minute_field (f_minute c) (minute u0) ltac:(lia) Wm Zm Hmin) as (M1 & M2).
  set (mi := parse_minute (field_text (f_minute c)) (minute u0)) in *.
  destruct (Z.ltb_spec mi 0) as [X|_]; [lia|].
  set (t1 := base + 60 * (mi - minute u0)). assert (T1 : base < t1) by lia.
  destruct (adjust_move u0 (set_minute u0 mi) base Hb E0) as (u1 & A1 & B1 & C1); unfold set_minute; cbn [year month day hour minute second]; try lia; try reflexivity.
  { destruct F0v as (_ & _ & V); lia. }
  unfold set_minute, set_hour, set_day, set_month in B1, C1; cbn [year month day hour minute second] in B1, C1. replace (base + 86400 * (day u0 - day u0) + 3600 * (hour u0 - hour u0) + 60 * (mi - minute u0)) with t1 in B1, C1 by (unfold t1; lia).
  unfold set_minute in A1. rewrite A1. cbn [obind]. rewrite C1. cbn [obind]. replace (base <? t1) with true by lia.
  destruct (time_fields t1 u1 ltac:(lia) B1) as (F1i & F1h & F1v & F1d & F1w & F1t & F1s).
  assert (P1 : holds (f_minute c) (minute u1)).
  { destruct M2 as [(->&_)|((x & Hx & Rx & Ex)&_)]; [exact I|]. replace (minute u1) with x; [exact Hx|]. unfold t1 in F1i. lia. }
  clear A1.
  destruct (hour_field (f_hour c) (hour u1) ltac:(lia) Wh Zh) as (H1 & H2).
  set (ho := parse_hour (field_text (f_hour c)) (hour u1) true) in *. destruct (Z.ltb_spec ho 0) as [X|_]; [lia|].
  set (t2 := t1 + 3600 * (ho - hour u1)). assert (T2 : base < t2) by lia.
  destruct (adjust_move u1 (set_hour u1 ho) t1 ltac:(lia) B1) as (u2 & A2 & B2 & C2); unfold set_hour; cbn [year month day hour minute second]; try lia; try reflexivity.
  { destruct F1v as (_ & _ & V); lia. }
  unfold set_minute, set_hour, set_day, set_month in B2, C2; cbn [year month day hour minute second] in B2, C2. replace (t1 + 86400 * (day u1 - day u1) + 3600 * (ho - hour u1) + 60 * (minute u1 - minute u1)) with t2 in B2, C2 by (unfold t2; lia).
  unfold set_hour in A2. rewrite A2. cbn [obind]. rewrite C2. cbn [obind]. replace (base <? t2) with true by lia.
  destruct (time_fields t2 u2 ltac:(lia) B2) as (F2i & F2h & F2v & F2d & F2w & F2t & F2s).
  assert (P2i : minute u2 = minute u1). { rewrite F2i, F1i. unfold t2. generalize (ho - hour u1). intros z. clear. replace (t1 + 3600 * z) with (t1 + z * 3600) by lia. rewrite Z.mod_add by lia. reflexivity. }
  assert (P2h : holds (f_hour c) (hour u2)).
  { destruct H2 as [[-> _]|((x & Hx & Rx & Ex) & _)]; [exact I|]. replace (hour u2) with x; [exact Hx|]. rewrite F2h. unfold t2. rewrite Ex. unfold cand. clear - F1h Rx.
    destruct (Z.ltb_spec x (hour u1)); lia. }
  clear A2. pose proof F2v as (V2y & V2m & V2d). unfold month_days. rewrite mon_days_ok by lia. cbn [obind].
  destruct (day_field (f_day c) (day u2) (days_in_month (year u2) (month u2)) V2d Wd) as (D1 & D2).
  set (da := parse_day (field_text (f_day c)) (days_in_month (year u2) (month u2)) (day u2) true) in *. destruct (Z.ltb_spec da 0) as [X|_]; [lia|].
  set (t3 := t2 + 86400 * (da - day u2)). assert (T3 : base < t3) by lia.
  destruct (adjust_move u2 (set_day u2 da) t2 ltac:(lia) B2) as (u3 & A3 & B3 & C3); unfold set_day; cbn [year month day hour minute second]; try lia; try reflexivity.
  unfold set_minute, set_hour, set_day, set_month in B3, C3; cbn [year month day hour minute second] in B3, C3. replace (t2 + 86400 * (da - day u2) + 3600 * (hour u2 - hour u2) + 60 * (minute u2 - minute u2)) with t3 in B3, C3 by (unfold t3; lia).
  unfold set_day in A3. rewrite A3. cbn [obind]. rewrite C3. cbn [obind]. replace (base <? t3) with true by lia.
  destruct (time_fields t3 u3 ltac:(lia) B3) as (F3i & F3h & F3v & F3d & F3w & F3t & F3s).
  assert (P3i : minute u3 = minute u2). { rewrite F3i, F2i. unfold t3. generalize (da - day u2). intros z. clear. replace (t2 + 86400 * z) with (t2 + z * 24 * 3600) by lia. rewrite Z.mod_add by lia. reflexivity. }
  assert (P3h : hour u3 = hour u2). { rewrite F3h, F2h. unfold t3. generalize (da - day u2). intros z. clear. replace (t2 + 86400 * z) with (t2 + z * 86400) by lia. rewrite Z.mod_add by lia. reflexivity. }
  assert (P3d : holds (f_day c) (day u3)).
  { destruct D2 as [[-> _]|((x & Hx & Rx & Ex) & _)]; [exact I|]. destruct (time_day t2 u2 x ltac:(lia) B2 Rx) as (w & Ew & Dw & _). fold (cand (day u2) (days_in_month (year u2) (month u2)) x) in Ew.
    rewrite <- Ex in Ew. fold t3 in Ew. rewrite B3 in Ew. injection Ew as <-. rewrite Dw. exact Hx. }
  clear A3. rewrite Mo. change (parse_month (field_text Any) (month u3) true) with (month u3). pose proof F3v as (V3y & V3m & V3d).
  destruct (Z.ltb_spec (month u3) 0) as [X|_]; [lia|].
  destruct (adjust_move u3 (set_month u3 (month u3)) t3 ltac:(lia) B3) as (u4 & A4 & B4 & C4); unfold set_month; cbn [year month day hour minute second]; try lia; try reflexivity.
  unfold set_minute, set_hour, set_day, set_month in B4, C4; cbn [year month day hour minute second] in B4, C4. replace (t3 + 86400 * (day u3 - day u3) + 3600 * (hour u3 - hour u3) + 60 * (minute u3 - minute u3)) with t3 in B4, C4 by lia.
  unfold set_month in A4. rewrite A4. rewrite B3 in B4. injection B4 as <-. cbn [obind]. rewrite C3. cbn [obind]. replace (base <? t3) with true by lia.
  pose proof (time_week t3 u3 ltac:(lia) B3) as W3.
  destruct (week_field (f_week c) (week u3) ltac:(lia) Ww) as (K1 & K2).
  set (we := parse_week (field_text (f_week c)) (week u3) true) in *. destruct (Z.ltb_spec we 0) as [X|_]; [lia|].
  set (t4 := t3 + 86400 * (we - week u3)). assert (T4 : base < t4) by lia.
  destruct (adjust_move u3 (set_day u3 (day u3 + (we - week u3))) t3 ltac:(lia) B3) as (u5 & A5 & B5 & C5); unfold set_day; cbn [year month day hour minute second]; try lia; try reflexivity.
  unfold set_minute, set_hour, set_day, set_month in B5, C5; cbn [year month day hour minute second] in B5, C5. replace (t3 + 86400 * (day u3 + (we - week u3) - day u3) + 3600 * (hour u3 - hour u3) + 60 * (minute u3 - minute u3)) with t4 in B5, C5 by (unfold t4; lia).
  unfold set_day in A5. rewrite A5. cbn [obind]. exists t4, u5. split; [exact C5|]. split; [exact T4|]. split; [exact B5|].
  destruct (time_fields t4 u5 ltac:(lia) B5) as (F5i & F5h & F5v & F5d & F5w & F5t & F5s).
  assert (P5i : minute u5 = minute u3). { rewrite F5i, F3i. unfold t4. generalize (we - week u3). intros z. clear. replace (t3 + 86400 * z) with (t3 + z * 24 * 3600) by lia. rewrite Z.mod_add by lia. reflexivity. }
  assert (P5h : hour u5 = hour u3). { rewrite F5h, F3h. unfold t4. generalize (we - week u3). intros z. clear. replace (t3 + 86400 * z) with (t3 + z * 86400) by lia. rewrite Z.mod_add by lia. reflexivity. }
  assert (M0 : mi - minute u0 <= 60) by lia.
  assert (H0 : ho - hour u1 <= 23) by (destruct H2 as [[_ ->]|((x & _ & Rx & ->) & _)]; [lia|]; unfold cand; destruct (Z.ltb_spec x (hour u1)); lia).
  assert (Mch : cron_matches c u5).
  { split; [rewrite P5i, P3i, P2i; exact P1|]. split; [rewrite P5h, P3h; exact P2h|]. split; [|split; [rewrite Mo; exact I|]].
    - destruct DW as [->|DW]; [exact I|]. assert (K : we = week u3) by (unfold we; rewrite DW; reflexivity).
      assert (T : t4 = t3) by (unfold t4; rewrite K; clear; lia). rewrite T, B3 in B5. injection B5 as <-. exact P3d.
    - destruct K2 as [[-> _]|((x & Hx & Rx & Ex) & _)]; [exact I|]. replace (week u5) with x; [exact Hx|].
      rewrite (time_week t4 u5 ltac:(lia) B5). unfold t4. rewrite Ex. unfold cand.
      replace (t3 + 86400 * ((if x <? week u3 then x + 7 else x) - week u3)) with (t3 + ((if x <? week u3 then x + 7 else x) - week u3) * 86400) by lia.
      rewrite Z.div_add by lia. rewrite W3. clear - Rx. generalize (t3 / 86400). intros n. destruct (x <? (n + 4) mod 7); lia. }
  split; [exact Mch|]. clear Mch P1 P2h P2i P3i P3h P3d P5i P5h A5 B5 C5 A4 C4.
  assert (Tday : f_day c = Any -> t3 = t2) by (intros Hd; unfold t3; destruct D2 as [[_ ->]|((x & Hx & _) & Nd)]; [lia|]; unfold da; rewrite Hd; change (t2 + 86400 * (day u2 - day u2) = t2); lia).
  assert (Twk : f_week c = Any -> t4 = t3) by (intros Hw; unfold t4, we; rewrite Hw; change (t3 + 86400 * (week u3 - week u3) = t3); lia).
  assert (Thr : f_hour c = Any -> t2 = t1) by (intros Hw; unfold t2, ho; rewrite Hw; change (t1 + 3600 * (hour u1 - hour u1) = t1); lia).
  split; [|split].
  - intros Zw t w (L1 & L2) Hm Ew (_ & _ & Xd & _ & Xw).
    assert (Hk : exists k, 0 <= k /\ t = t2 + 86400 * k /\ k < (t4 - t2) / 86400).
    { exists ((t - t2) / 86400). unfold t4, t3 in *. clear - L1 L2 Hm H0 M0 T1 D1 K1 t1. unfold t2, t1 in *. lia. }
    destruct Hk as (k & K0 & -> & K3). destruct DW as [DW | DW].
    + specialize (Tday DW). destruct K2 as [[Kw _]|(_ & Nk)]; [rewrite (Twk Kw), Tday in K3; replace (t2 - t2) with 0 in K3 by lia; change (0 / 86400) with 0 in K3; lia|].
      specialize (Nk Zw _ Xw). assert (R4 : (t4 - t2) / 86400 = we - week u3) by (unfold t4; rewrite Tday; replace (t2 + 86400 * (we - week u3) - t2) with ((we - week u3) * 86400) by lia; apply Z.div_mul; lia).
      rewrite R4 in K3. rewrite Tday in W3.
      assert (Tk : 0 <= t2 + 86400 * k) by (clear - Hb T2 K0; lia). rewrite (time_week (t2 + 86400 * k) w Tk Ew) in Nk. replace (t2 + 86400 * k) with (t2 + k * 86400) in Nk by lia. rewrite Z.div_add in Nk by lia.
      clear - Nk W3 K3 K0. unfold cand in Nk. assert (Wr : 0 <= week u3 < 7) by lia. assert (X : (t2 / 86400 + k + 4) mod 7 = (week u3 + k) mod 7) by (rewrite W3; lia). rewrite X in Nk. clear X W3. destruct (Z.ltb_spec ((week u3 + k) mod 7) (week u3)); lia.
    + specialize (Twk DW). destruct D2 as [[_ Kd]|((x0 & _ & X0 & E0') & Nk)].
      * rewrite Twk in K3. unfold t3 in K3. rewrite Kd in K3. replace (t2 + 86400 * (day u2 - day u2) - t2) with 0 in K3 by lia. change (0 / 86400) with 0 in K3. lia.
      * assert (Zd : zero_last (f_day c)). { clear - Wd. destruct (f_day c) as [|l]; [exact I|]. cbn. intros X. apply removelast_in in X. destruct Wd as [_ Wd]. rewrite Forall_forall in Wd. apply Wd in X. lia. }
        specialize (Nk Zd _ Xd). assert (R4 : (t4 - t2) / 86400 = da - day u2) by (rewrite Twk; unfold t3; replace (t2 + 86400 * (da - day u2) - t2) with ((da - day u2) * 86400) by lia; apply Z.div_mul; lia).
        rewrite R4 in K3. assert (Hda : da <= 28 + days_in_month (year u2) (month u2)) by (rewrite E0'; unfold cand; destruct (Z.ltb_spec x0 (day u2)); lia).
        rewrite (time_days t2 u2 w k ltac:(clear - Hb T2; lia) B2 K0 Ew ltac:(clear - K3 Hda; lia)) in Nk. clear - Nk K3 K0 V2d. unfold cand in Nk.
        destruct (Z.leb_spec (day u2 + k) (days_in_month (year u2) (month u2))); [destruct (Z.ltb_spec (day u2 + k) (day u2)); lia|].
        destruct (Z.ltb_spec (day u2 + k - days_in_month (year u2) (month u2)) (day u2)); lia.
  - intros Hd Hw t w (L1 & L2) Hm Ew (_ & Xh & _). rewrite (Twk Hw), (Tday Hd) in *. destruct H2 as [[_ Kh]|(_ & Nh)].
    + assert (t2 = t1) by (unfold t2; rewrite Kh; lia). clear - L1 L2 Hm M0 T1 H. subst t2. rewrite H in *. unfold t1 in *. lia.
    + specialize (Nh Zh _ Xh). assert (Hk : exists k, 0 <= k /\ t = t1 + 3600 * k /\ k < ho - hour u1).
      { exists ((t - t1) / 3600). clear - L1 L2 Hm H0 M0 T1 t1. unfold t2, t1 in *. lia. }
      destruct Hk as (k & K0 & -> & K3). destruct (time_fields (t1 + 3600 * k) w ltac:(clear - Hb T1 K0; lia) Ew) as (_ & Hh & _). rewrite Hh in Nh. clear - Nh F1h K0 K3 H0.
      assert (X : (t1 + 3600 * k) mod 86400 / 3600 = (hour u1 + k) mod 24) by lia. rewrite X in Nh. unfold cand in Nh. assert (0 <= hour u1 < 24) by lia.
      destruct (Z.ltb_spec ((hour u1 + k) mod 24) (hour u1)); lia.
  - intros Hh Hd Hw t w (L1 & L2) Hm Ew (Xm & _). rewrite (Twk Hw), (Tday Hd), (Thr Hh) in *. destruct M2 as [[_ Km]|(_ & Nm)].
    + clear - L1 L2 Hm Km. unfold t1 in *. rewrite Km in *. lia.
    + specialize (Nm _ Xm). assert (Hk : exists k, 0 < k /\ t = base + 60 * k /\ k < mi - minute u0).
      { exists ((t - base) / 60). clear - L1 L2 Hm M0 t1. unfold t1 in *. lia. }
      destruct Hk as (k & K0 & -> & K3). destruct (time_fields (base + 60 * k) w ltac:(clear - Hb K0; lia) Ew) as (Hi & _). rewrite Hi in Nm. clear - Nm F0i K0 K3 M0.
      assert (X : (base + 60 * k) mod 3600 / 60 = (minute u0 + k) mod 60) by lia. rewrite X in Nm. unfold cand in Nm. assert (0 <= minute u0 < 60) by lia.
      destruct (Z.ltb_spec ((minute u0 + k) mod 60) (minute u0)); lia.
Qed.

(** Splitting the text. *)
Lemma field_chars f lo hi : 0 <= lo -> hi <= 99 -> within f lo hi -> field_text f <> [] /\ Forall (fun c => ~ In c [32; 9]%N) (field_text f).
Proof.
  intros Hl Hh W. destruct f as [|l]; cbn [field_text].
  - split; [discriminate|]. constructor; [cbn; intuition discriminate|constructor].
  - destruct W as [Hn W]. assert (Ch : Forall (fun c => isdigit c = true \/ c = 44%N) (sep_by 44%N (map dec l))) by (apply sep_chars; revert W; apply Forall_impl; intros; lia).
    split.
    + destruct l as [|a l]; [congruence|]. inversion W; subst. destruct (atol_dec a ltac:(lia)) as (_ & _ & C & _). destruct l as [|b l]; cbn [map sep_by]; [exact C|].
      destruct (dec a); [congruence|discriminate].
    + revert Ch. apply Forall_impl. intros c Hc. unfold isdigit in Hc. cbn [In]. lia.
Qed.
Lemma split_fields : forall fs, fs <> [] -> Forall (fun f => f <> [] /\ Forall (fun c => ~ In c [32; 9]%N) f) fs ->
  runs (fun c => In c [32; 9]%N) (sep_by 32%N fs) fs /\ (runs (fun c => In c [32; 9]%N) (32%N :: sep_by 32%N fs) fs).
Proof.
  induction fs as [|f fs IH]; intros Hn F; [congruence|]. inversion F as [|? ? [F1 F2] F3]; subst. destruct fs as [|g fs].
  - cbn [sep_by]. split; [apply (runs_last _ [] f); auto|]. apply (runs_last _ [32%N] f); auto. constructor; [cbn; auto|constructor].
  - destruct (IH ltac:(discriminate) F3) as [_ IH']. change (sep_by 32%N (f :: g :: fs)) with (f ++ 32%N :: sep_by 32%N (g :: fs)). split.
    + apply (runs_cons _ [] f 32%N); auto. cbn; auto.
    + apply (runs_cons _ [32%N] f 32%N); auto; [constructor; [cbn; auto|constructor]|cbn; auto].
Qed.
Lemma cron_slice c : well_formed c -> slice (cron_text c) [32; 9]%N = Some (map field_text [f_minute c; f_hour c; f_day c; f_month c; f_week c]).
Proof.
  intros (W1 & W2 & W3 & W4 & W5). destruct (slice_ok (cron_text c) [32; 9]%N) as (ps & E & R). rewrite E. f_equal.
  apply (runs_in_unique [32; 9]%N (cron_text c)); [exact R|]. apply split_fields; [discriminate|]. cbn [map].
  constructor; [apply (field_chars _ 0 59); auto; lia|]. constructor; [apply (field_chars _ 0 23); auto; lia|]. constructor; [apply (field_chars _ 1 31); auto; lia|].
  constructor; [apply (field_chars _ 1 12); auto; lia|]. constructor; [apply (field_chars _ 0 6); auto; lia|constructor].
Qed.
Lemma cron_ok c base : 0 <= base -> well_formed c -> within (f_day c) 1 28 -> f_month c = Any -> (f_day c = Any \/ f_week c = Any) ->
  zero_last (f_minute c) -> zero_last (f_hour c) -> (f_minute c = Any \/ ~ holds (f_minute c) (base mod 3600 / 60)) ->
  exists r u, cron_parse (cron_text c) base = Some r /\ base < r /\ time2utc r = Some u /\ cron_matches c u /\
    (zero_last (f_week c) -> none_before c base r 86400) /\ (f_day c = Any -> f_week c = Any -> none_before c base r 3600) /\
    (f_hour c = Any -> f_day c = Any -> f_week c = Any -> none_before c base r 60).
Proof.
  intros Hb W Wd Mo DW Zm Zh Hmin. unfold cron_parse. rewrite cron_slice by exact W. cbn [obind]. apply cron_fields_ok; assumption.
Qed.

Lemma only_minutes ms k base : 0 <= base -> 0 < k -> parse_minute ms (base mod 3600 / 60) = base mod 3600 / 60 + k ->
  cron_fields [ms; field_text Any; field_text Any; field_text Any; field_text Any] base = Some (base + 60 * k).
Proof.
  intros Hb Hk Hm. unfold cron_fields. cbn [nth]. destruct (time2utc_main base Hb) as (u0 & E0 & _). rewrite E0. cbn [obind].
  destruct (time_fields base u0 Hb E0) as (F0i & F0h & F0v & F0d & F0w & F0t & F0s). rewrite <- F0i in Hm. rewrite Hm. replace (minute u0 + k <? 0) with false by lia.
  destruct (adjust_move u0 (set_minute u0 (minute u0 + k)) base Hb E0) as (u1 & A1 & B1 & C1); unfold set_minute; cbn [year month day hour minute second]; try lia; try reflexivity.
  { destruct F0v as (_ & _ & V); lia. }
  unfold set_minute, set_hour, set_day, set_month in B1, C1; cbn [year month day hour minute second] in B1, C1. replace (base + 86400 * (day u0 - day u0) + 3600 * (hour u0 - hour u0) + 60 * (minute u0 + k - minute u0)) with (base + 60 * k) in B1, C1 by lia.
  unfold set_minute in A1. rewrite A1. cbn [obind]. rewrite C1. cbn [obind].
  destruct (time_fields (base + 60 * k) u1 ltac:(lia) B1) as (F1i & F1h & F1v & F1d & F1w & F1t & F1s). pose proof F1v as (V1y & V1m & V1d).
  assert (Same : utc_adjust u1 = Some u1).
  { destruct (adjust_move u1 u1 (base + 60 * k) ltac:(lia) B1) as (w & A & B & C); try lia; try reflexivity.
    rewrite A. replace (base + 60 * k + 86400 * (day u1 - day u1) + 3600 * (hour u1 - hour u1) + 60 * (minute u1 - minute u1)) with (base + 60 * k) in B by lia.
    rewrite B1 in B. symmetry. exact B. }
  change (parse_hour (field_text Any) (hour u1) (base <? base + 60 * k)) with (hour u1). destruct (Z.ltb_spec (hour u1) 0); [lia|].
  assert (S1 : set_hour u1 (hour u1) = u1) by (destruct u1; reflexivity). rewrite S1, Same. cbn [obind]. rewrite C1. cbn [obind].
  unfold month_days. rewrite mon_days_ok by lia. cbn [obind].
  change (parse_day (field_text Any) (days_in_month (year u1) (month u1)) (day u1) (base <? base + 60 * k)) with (day u1). destruct (Z.ltb_spec (day u1) 0); [lia|].
  assert (S2 : set_day u1 (day u1) = u1) by (destruct u1; reflexivity). rewrite S2, Same. cbn [obind]. rewrite C1. cbn [obind].
  change (parse_month (field_text Any) (month u1) (base <? base + 60 * k)) with (month u1). destruct (Z.ltb_spec (month u1) 0); [lia|].
  assert (S3 : set_month u1 (month u1) = u1) by (destruct u1; reflexivity). rewrite S3, Same. cbn [obind]. rewrite C1. cbn [obind].
  change (parse_week (field_text Any) (week u1) (base <? base + 60 * k)) with (week u1). pose proof (time_week (base + 60 * k) u1 ltac:(lia) B1). destruct (Z.ltb_spec (week u1) 0); [lia|].
  replace (day u1 + (week u1 - week u1)) with (day u1) by lia. rewrite S2, Same. cbn [obind]. exact C1.
Qed.

Lemma all_stars base : 0 <= base -> cron_parse (cron_text (Cron Any Any Any Any Any)) base = Some (base + 60).
Proof.
  intros Hb. unfold cron_parse. rewrite cron_slice by (repeat split; exact I). cbn [obind map f_minute f_hour f_day f_month f_week].
  rewrite (only_minutes (field_text Any) 1 base Hb); [reflexivity | lia | reflexivity].
Qed.

(** Periods *)
Lemma slash_step a p : Forall (fun c => isdigit c = true \/ c = 44%N) p -> last_slash (a ++ 47%N :: p) = Some (a, p).
Proof. intros H. induction a as [|c a IH]; cbn [app last_slash]; [rewrite no_slash by exact H; reflexivity | rewrite IH; reflexivity]. Qed.
Lemma dec_chars p : 0 <= p <= 99 -> Forall (fun c => isdigit c = true \/ c = 44%N) (dec p).
Proof. intros H. destruct (atol_dec p H) as (_ & B & _). revert B. apply Forall_impl. auto. Qed.
Lemma star_period p min : 1 <= p < 60 -> parse_minute (42%N :: 47%N :: dec p) min = min + p.
Proof.
  intros H. unfold parse_minute, parse_field. change (42%N :: 47%N :: dec p) with ([42%N] ++ 47%N :: dec p). rewrite slash_step by (apply dec_chars; lia). cbn [app].
  destruct (atol_dec p ltac:(lia)) as (-> & _). cbn [per_lo per_hi]. unfold value_ok. replace ((1 <=? p) && (p <? 60)) with true by lia. cbn [negb field_loop].
  change ((42 =? 44)%N) with false. change ((42 =? 42)%N) with true. cbv iota. cbn [field_loop star_save]. unfold step_of. replace (p =? 0) with false by lia. reflexivity.
Qed.
Lemma value_period v p min : 0 <= min < 60 -> 0 <= v < 60 -> 1 <= p < 60 -> parse_minute (dec v ++ 47%N :: dec p) min = if min =? v then min + p else if v <? min then v + 60 else v.
Proof.
  intros Hmn Hv H. unfold parse_minute, parse_field. rewrite slash_step by (apply dec_chars; lia). destruct (atol_dec p ltac:(lia)) as (-> & _). destruct (atol_dec v ltac:(lia)) as (A & B & C & D & _).
  cbn [per_lo per_hi]. unfold value_ok at 1. replace ((1 <=? p) && (p <? 60)) with true by lia. cbn [negb].
  assert (X : forall z, match dec v ++ 47%N :: dec p with [] => -1 | _ => (if match dec v ++ 47%N :: dec p with [c] => (c =? 42)%N | _ => false end then min + 1 else z) end = z).
  { intros z. destruct (dec v) as [|c [|c' t]]; [congruence | cbn [app]; destruct (dec p); reflexivity | reflexivity]. }
  rewrite X. rewrite <- (app_nil_r (dec v)), loop_digits by exact B. cbn [app field_loop]. destruct (dec v) as [|c t] eqn:Ev; [congruence|]. rewrite <- Ev in *.
  cbn [digits seven end_lo val_hi turn pick andb]. replace (2 <? length (dec v))%nat with false by lia. rewrite A. unfold value_ok. replace ((0 <=? v) && (v <? 60)) with true by lia. cbn [negb].
  unfold pick_minute. change (0 =? 0) with true. cbv iota. destruct (Z.ltb_spec v min); destruct (Z.eqb_spec min v); destruct (Z.eqb_spec min (v + 60)); try lia; reflexivity.
Qed.
Lemma period_slice ms : ms <> [] -> Forall (fun c => ~ In c [32; 9]%N) ms -> slice (sep_by 32%N (ms :: map field_text [Any; Any; Any; Any])) [32; 9]%N = Some (ms :: map field_text [Any; Any; Any; Any]).
Proof.
  intros H1 H2. destruct (slice_ok (sep_by 32%N (ms :: map field_text [Any; Any; Any; Any])) [32; 9]%N) as (ps & E & R). rewrite E. f_equal.
  apply (runs_in_unique [32; 9]%N (sep_by 32%N (ms :: map field_text [Any; Any; Any; Any]))); [exact R|]. apply split_fields; [discriminate|]. cbn [map field_text].
  constructor; [split; assumption|]. repeat (constructor; [split; [discriminate|]; constructor; [cbn; intuition discriminate | constructor]|]). constructor.
Qed.
Lemma digits_clear l : Forall (fun c => isdigit c = true) l -> Forall (fun c => ~ In c [32; 9]%N) l.
Proof. apply Forall_impl. intros c Hc. unfold isdigit in Hc. cbn [In]. lia. Qed.
Lemma every_period p base : 0 <= base -> 1 <= p < 60 -> cron_parse (sep_by 32%N [42%N :: 47%N :: dec p; [42%N]; [42%N]; [42%N]; [42%N]]) base = Some (base + 60 * p).
Proof.
  intros Hb Hp. unfold cron_parse. destruct (atol_dec p ltac:(lia)) as (_ & B & _).
  assert (E := period_slice (42%N :: 47%N :: dec p)). cbn [map field_text] in E. rewrite E; [|discriminate | repeat (constructor; [cbn; intuition discriminate|]); apply digits_clear, B]. cbn [obind].
  apply only_minutes; [exact Hb | lia | apply star_period; lia].
Qed.
Lemma from_value_period v p base : 0 <= base -> 0 <= v < 60 -> 1 <= p < 60 ->
  cron_parse (sep_by 32%N [dec v ++ 47%N :: dec p; [42%N]; [42%N]; [42%N]; [42%N]]) base =
  Some (base + 60 * (if base mod 3600 / 60 =? v then p else (v - base mod 3600 / 60) mod 60)).
Proof.
  intros Hb Hv Hp. unfold cron_parse. destruct (atol_dec p ltac:(lia)) as (_ & B & _). destruct (atol_dec v ltac:(lia)) as (_ & B' & C & _).
  assert (E := period_slice (dec v ++ 47%N :: dec p)). cbn [map field_text] in E. rewrite E; [| destruct (dec v); discriminate | apply Forall_app; split; [apply digits_clear, B' | constructor; [cbn; intuition discriminate | apply digits_clear, B]]]. cbn [obind].
  apply only_minutes; [exact Hb | |rewrite value_period by lia].
  - destruct (Z.eqb_spec (base mod 3600 / 60) v); lia.
  - destruct (Z.eqb_spec (base mod 3600 / 60) v); [lia|]. destruct (Z.ltb_spec v (base mod 3600 / 60)); lia.
Qed.

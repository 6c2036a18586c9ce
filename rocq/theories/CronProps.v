(** Property C34: the next time of a cron expression. *)
Require Import List NArith ZArith.
Require Import Verif.Base Verif.CalModel Verif.CalSpec Verif.CronModel Verif.CronSpec Verif.CronProofs.
Import ListNotations.
Open Scope Z_scope.

(** The full property would be: for every well-formed expression and every base time the answer is later than the base time and matches. It is
    proved for expressions without a month, with days up to 28, not restricting both the day and the day of the week, with no zero before a comma,
    and when the minute of the base time is not itself in the list of minutes. Each exception is refuted below.
    The answer is also the nearest one in this sense: no earlier day has a match at the same time of day; if only minutes and hours are listed, no
    earlier hour has one at the same minute; if only minutes are listed, it is the first matching minute. (It is not the first match in general,
    because a field that moves forward does not reset the smaller ones: refuted below.) *)
Theorem cron_next_matches_partial : forall c base, 0 <= base -> well_formed c ->
  within (f_day c) 1 28 -> f_month c = Any -> (f_day c = Any \/ f_week c = Any) -> zero_last (f_minute c) -> zero_last (f_hour c) ->
  (f_minute c = Any \/ ~ holds (f_minute c) (base mod 3600 / 60)) ->
  exists r u, cron_parse (cron_text c) base = Some r /\ base < r /\ time2utc r = Some u /\ cron_matches c u /\
    (zero_last (f_week c) -> none_before c base r 86400) /\ (f_day c = Any -> f_week c = Any -> none_before c base r 3600) /\
    (f_hour c = Any -> f_day c = Any -> f_week c = Any -> none_before c base r 60).
Proof. exact cron_ok. Qed.
Print Assumptions cron_next_matches_partial.
Example cron_ex : let c := Cron (OneOf [5; 35; 0]) (OneOf [3; 15]) Any Any (OneOf [1; 4]) in
  cron_text c = [53; 44; 51; 53; 44; 48; 32; 51; 44; 49; 53; 32; 42; 32; 42; 32; 49; 44; 52]%N /\ well_formed c /\
  cron_parse (cron_text c) 1700000000 = Some 1700105720.
Proof.
  split; [reflexivity|]. split; [|vm_compute; reflexivity].
  repeat split; cbn [f_minute f_hour f_day f_month f_week within]; try discriminate; repeat constructor; discriminate.
Qed.

(** With stars only, the answer is one minute later. *)
Theorem cron_every_minute : forall base, 0 <= base -> cron_parse (cron_text (Cron Any Any Any Any Any)) base = Some (base + 60).
Proof. exact all_stars. Qed.
Print Assumptions cron_every_minute.

(** In the listed minute itself the answer is the base time again. *)
Theorem cron_same_minute_refuted : exists c base, well_formed c /\ 0 <= base /\ cron_parse (cron_text c) base = Some base.
Proof. exists (Cron (OneOf [5]) Any Any Any Any), 300. split; [repeat split; try discriminate; repeat constructor; discriminate|]. split; [discriminate|vm_compute; reflexivity]. Qed.
Print Assumptions cron_same_minute_refuted.
(** A month that has passed leads to a read outside the table of month lengths. *)
Theorem cron_passed_month_refuted : exists c base, well_formed c /\ 0 <= base /\ cron_parse (cron_text c) base = None.
Proof. exists (Cron Any Any Any (OneOf [1]) Any), (86400 * 31). split; [repeat split; try discriminate; repeat constructor; discriminate|]. split; [discriminate|vm_compute; reflexivity]. Qed.
Print Assumptions cron_passed_month_refuted.
(** Day 31 in a shorter month gives a time in the next month that does not match. *)
Theorem cron_day_31_refuted : exists c base r u, well_formed c /\ 0 <= base /\ cron_parse (cron_text c) base = Some r /\ r <> 0 /\ time2utc r = Some u /\ ~ cron_matches c u.
Proof.
  exists (Cron Any Any (OneOf [31]) Any Any), (86400 * 31), 5270460, (U 1970 3 3 0 1 0 2). split; [repeat split; try discriminate; repeat constructor; discriminate|].
  split; [discriminate|]. split; [vm_compute; reflexivity|]. split; [discriminate|]. split; [vm_compute; reflexivity|].
  intros (_ & _ & H & _). cbn in H. destruct H as [H|[]]; discriminate.
Qed.
Print Assumptions cron_day_31_refuted.
(** Day and day of the week together: the day of the week is reached by leaving the day. *)
Theorem cron_day_and_week_refuted : exists c base r u, well_formed c /\ 0 <= base /\ cron_parse (cron_text c) base = Some r /\ r <> 0 /\ time2utc r = Some u /\ ~ cron_matches c u.
Proof.
  exists (Cron Any Any (OneOf [1]) Any (OneOf [5])), 0, 86460, (U 1970 1 2 0 1 0 5). split; [repeat split; try discriminate; repeat constructor; discriminate|].
  split; [discriminate|]. split; [vm_compute; reflexivity|]. split; [discriminate|]. split; [vm_compute; reflexivity|].
  intros (_ & _ & H & _). cbn in H. destruct H as [H|[]]; discriminate.
Qed.
Print Assumptions cron_day_and_week_refuted.
(** Zero before a comma is refused. *)
Theorem cron_zero_first_refuted : exists c base, well_formed c /\ 0 <= base /\ cron_parse (cron_text c) base = Some 0.
Proof. exists (Cron (OneOf [0; 30]) Any Any Any Any), 86400. split; [repeat split; try discriminate; repeat constructor; discriminate|]. split; [discriminate|vm_compute; reflexivity]. Qed.
Print Assumptions cron_zero_first_refuted.
(** The first match is missed: at 10:20 the expression for five past and twenty-five to, at eleven, gives 11:35 and not 11:05. *)
Theorem cron_first_match_refuted : exists c base r t u, well_formed c /\ 0 <= base /\ cron_parse (cron_text c) base = Some r /\ base < t < r /\ time2utc t = Some u /\ cron_matches c u.
Proof.
  exists (Cron (OneOf [5; 35]) (OneOf [11]) Any Any Any), 37200, 41700, 39900, (U 1970 1 1 11 5 0 4). split; [repeat split; try discriminate; repeat constructor; discriminate|].
  split; [discriminate|]. split; [vm_compute; reflexivity|]. split; [split; reflexivity|]. split; [vm_compute; reflexivity|]. repeat split; cbn; tauto.
Qed.
Print Assumptions cron_first_match_refuted.
(** On a Sunday the list of Sunday and Wednesday, in this order, gives Wednesday, although later the same day matches. *)
Theorem cron_sunday_first_refuted : exists c base r, well_formed c /\ 0 <= base /\ cron_parse (cron_text c) base = Some r /\ ~ none_before c base r 86400.
Proof.
  exists (Cron Any Any Any Any (OneOf [0; 3])), 259200, 518460. split; [repeat split; try discriminate; repeat constructor; discriminate|].
  split; [discriminate|]. split; [vm_compute; reflexivity|]. intros H. apply (H 259260 (U 1970 1 4 0 1 0 0)); [split; reflexivity | reflexivity | vm_compute; reflexivity|]. repeat split; cbn; tauto.
Qed.
Print Assumptions cron_sunday_first_refuted.

(** A star with a period in the minutes: that many minutes after the base time (and not, as in other crons, the next multiple). *)
Theorem cron_star_period : forall p base, 0 <= base -> 1 <= p < 60 ->
  cron_parse (sep_by 32%N [42%N :: 47%N :: dec p; [42%N]; [42%N]; [42%N]; [42%N]]) base = Some (base + 60 * p).
Proof. exact every_period. Qed.
Print Assumptions cron_star_period.
(** A value with a period: the next time the minute has that value, or in that minute itself the period later. *)
Theorem cron_value_period : forall v p base, 0 <= base -> 0 <= v < 60 -> 1 <= p < 60 ->
  cron_parse (sep_by 32%N [dec v ++ 47%N :: dec p; [42%N]; [42%N]; [42%N]; [42%N]]) base =
  Some (base + 60 * (if base mod 3600 / 60 =? v then p else (v - base mod 3600 / 60) mod 60)).
Proof. exact from_value_period. Qed.
Print Assumptions cron_value_period.
Example cron_period_ex : sep_by 32%N [42%N :: 47%N :: dec 15; [42%N]; [42%N]; [42%N]; [42%N]] = [42; 47; 49; 53; 32; 42; 32; 42; 32; 42; 32; 42]%N /\
  cron_parse [53; 47; 49; 53; 32; 42; 32; 42; 32; 42; 32; 42]%N 300 = Some 1200.
Proof. split; vm_compute; reflexivity. Qed.

(** Properties C35, C43 and C44: calendar conversions. *)
Require Import List NArith ZArith.
Require Import Verif.Base Verif.CalModel Verif.CalSpec Verif.CalProofs.
Import ListNotations.
Open Scope Z_scope.

(** C35: a time stamp is converted into the date reached by counting days of the Gregorian calendar from 1 January 1970, with the right day of
    the week and time of day. *)
Theorem time2utc_is_calendar : forall t, 0 <= t ->
  exists u, time2utc t = Some u /\ moment u (t / 86400) (t mod 86400).
Proof. exact time2utc_main. Qed.
Print Assumptions time2utc_is_calendar.
Example time2utc_ex : time2utc 951782400 = Some (U 2000 2 29 0 0 0 2) /\ date_after 59 = (1970, 3, 1, 0).
Proof. split; reflexivity. Qed.

(** C35: converting back gives the time stamp, and the other way round for every date from 1970 on. *)
Theorem utc_of_time_round_trip : forall t, 0 <= t -> exists u, time2utc t = Some u /\ utc2time u = Some t.
Proof. exact time_utc_time. Qed.
Print Assumptions utc_of_time_round_trip.
Theorem time_of_utc_round_trip : forall u, 1970 <= year u -> in_range u ->
  exists t v, utc2time u = Some t /\ 0 <= t /\ time2utc t = Some v /\
    year v = year u /\ month v = month u /\ day v = day u /\ hour v = hour u /\ minute v = minute u /\ second v = second u.
Proof. exact utc_time_utc. Qed.
Print Assumptions time_of_utc_round_trip.
Example utc_ex : in_range (U 2100 2 28 23 59 59 0) /\ utc2time (U 2100 2 28 23 59 59 0) = Some 4107542399.
Proof. split; [repeat split; vm_compute; discriminate||reflexivity|reflexivity]. Qed.
(** Before 1970 the conversion is wrong: one second before the epoch is not the last second of 1969. *)
Theorem time2utc_negative_refuted : time2utc (-1) = Some (U 1970 1 1 0 0 (-1) 4).
Proof. reflexivity. Qed.
Print Assumptions time2utc_negative_refuted.

(** C43: adjusting a time whose day, hour, minute and second have overflowed gives the normal form of the same moment. *)
Theorem utc_adjust_normalises_partial : forall u, 1970 <= year u -> 1 <= month u <= 12 -> 1 <= day u -> 0 <= hour u -> 0 <= minute u -> 0 <= second u ->
  exists v t, utc_adjust u = Some v /\ utc2time u = Some t /\ time2utc t = Some v.
Proof. exact utc_adjust_ok. Qed.
Print Assumptions utc_adjust_normalises_partial.
Example adjust_ex : utc_adjust (U 2023 12 400 25 61 3661 0) = Some (U 2025 1 4 3 2 1 6).
Proof. reflexivity. Qed.
(** Missing for the full property: a month above 12. The function has code to carry months into years, but reads the table of month lengths
    outside its bounds before it gets there. *)
Theorem utc_adjust_month_refuted : exists u, month u = 13 /\ 1970 <= year u /\ utc_adjust u = None.
Proof. exists (U 2023 13 1 0 0 0 0). split; [reflexivity|]. split; [discriminate|reflexivity]. Qed.
Print Assumptions utc_adjust_month_refuted.

(** C44: the text of a moment is read as that moment. *)
Theorem s2time_reads_text : forall gen u z, text_year gen (year u) -> in_range u -> isz z = true ->
  exists t, utc2time u = Some t /\ s2time (time_text gen u z) gen = Some (S2Ok t).
Proof. exact s2time_text. Qed.
Print Assumptions s2time_reads_text.
(** C44: nothing else is accepted, except that the day may be written 00. *)
Theorem s2time_accepts_only_text_partial : forall gen s t, s2time s gen = Some (S2Ok t) -> day_text gen s <> [48; 48]%N ->
  exists u z, text_year gen (year u) /\ in_range u /\ isz z = true /\ s = time_text gen u z /\ utc2time u = Some t.
Proof. exact s2time_accepts. Qed.
Print Assumptions s2time_accepts_only_text_partial.
Example s2time_ex : time_text false (U 1999 12 31 23 59 58 0) 90 = [57; 57; 49; 50; 51; 49; 50; 51; 53; 57; 53; 56; 90]%N /\
  s2time (time_text false (U 1999 12 31 23 59 58 0) 90) false = Some (S2Ok 946684798).
Proof. split; reflexivity. Qed.
(** Day 00 is accepted, and month 00 reads the table of month lengths outside its bounds. *)
Theorem s2time_zero_fields_refuted :
  s2time [50; 48; 48; 51; 48; 48; 48; 48; 48; 48; 48; 48; 90]%N false = Some (S2Ok 1582934400) /\
  s2time [50; 48; 48; 48; 48; 49; 48; 48; 48; 48; 48; 48; 90]%N false = None.
Proof. split; vm_compute; reflexivity. Qed.
Print Assumptions s2time_zero_fields_refuted.

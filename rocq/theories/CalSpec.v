(** The Gregorian calendar, one day at a time. *)
Require Import List NArith ZArith Bool.
Require Import Verif.CalModel.
Import ListNotations.
Open Scope Z_scope.

(** Years divisible by 4 are leap years, except centuries not divisible by 400. *)
Definition leap_year (y : Z) : bool := if y mod 100 =? 0 then y mod 400 =? 0 else y mod 4 =? 0.
Definition days_in_month (y m : Z) : Z :=
  if (m =? 4) || (m =? 6) || (m =? 9) || (m =? 11) then 30
  else if m =? 2 then if leap_year y then 29 else 28
  else 31.

(** Year, month, day, day of the week (0 is Sunday). *)
Definition date := (Z * Z * Z * Z)%type.
Definition next_day (x : date) : date :=
  let '(y, m, d, w) := x in
  let w := if w =? 6 then 0 else w + 1 in
  if d <? days_in_month y m then (y, m, d + 1, w)
  else if m <? 12 then (y, m + 1, 1, w)
  else (y + 1, 1, 1, w).
(** Thursday, 1 January 1970. *)
Definition epoch : date := (1970, 1, 1, 4).
(** The date [n] days after the epoch. *)
Definition date_after (n : Z) : date := Nat.iter (Z.to_nat n) next_day epoch.

Definition date_of (u : utc) : date := (year u, month u, day u, week u).
(** Fields in their ranges. *)
Definition in_range (u : utc) : Prop :=
  1 <= month u <= 12 /\ 1 <= day u <= days_in_month (year u) (month u) /\ 0 <= hour u < 24 /\ 0 <= minute u < 60 /\ 0 <= second u < 60.
(** A moment: a date of the calendar and the seconds since midnight. *)
Definition moment (u : utc) (n s : Z) : Prop :=
  date_of u = date_after n /\ 0 <= hour u < 24 /\ 0 <= minute u < 60 /\ 0 <= second u < 60 /\ s = hour u * 3600 + minute u * 60 + second u.

(** The text of a moment as in ASN.1: two (or four) decimal digits for each field and a final Z. *)
Definition digit (n : Z) : N := Z.to_N (48 + n).
Definition digits2 (n : Z) : list N := [digit (n / 10); digit (n mod 10)].
Definition digits4 (n : Z) : list N := digits2 (n / 100) ++ digits2 (n mod 100).
Definition time_text (gen : bool) (u : utc) (z : N) : list N :=
  (if gen then digits4 (year u) else digits2 (year u mod 100)) ++
  digits2 (month u) ++ digits2 (day u) ++ digits2 (hour u) ++ digits2 (minute u) ++ digits2 (second u) ++ [z].
(** The years that the two forms can express. *)
Definition text_year (gen : bool) (y : Z) : Prop := 1970 <= y <= if gen then 9999 else 2049.
(** The final letter, Z or z. *)
Definition isz (z : N) : bool := (z =? 90)%N || (z =? 122)%N.
(** The two characters of a text where the day is written. *)
Definition day_text (gen : bool) (s : list N) : list N := firstn 2 (skipn (if gen then 6 else 4) s).

(** Model of the calendar functions of src/mln_tools.c:32-36 and 341-522. All fields are [long]; the values that occur are far from its
    limits (a 64-bit time stamp has less than 2^37 years), so the model uses unbounded integers. A read outside the table of month lengths is
    [None], as is exhausted fuel. Division is C division (towards zero). *)
Require Import List NArith ZArith Bool.
Require Import Verif.Base.
Import ListNotations.
Open Scope Z_scope.

(** include/mln_tools.h:24-32 struct utctime *)
Record utc := U { year : Z; month : Z; day : Z; hour : Z; minute : Z; second : Z; week : Z }.

(** src/mln_tools.c:33-36 mon_days; the row is chosen by a 0/1 index, the column index is a [long]. *)
Definition mon_row (leap : bool) : list Z :=
  if leap then [31; 29; 31; 30; 31; 30; 31; 31; 30; 31; 30; 31] else [31; 28; 31; 30; 31; 30; 31; 31; 30; 31; 30; 31].
Definition mon_days (leap : bool) (m : Z) : option Z := if m <? 0 then None else nth_error (mon_row leap) (Z.to_nat m).

(** src/mln_tools.c:344-348 mln_is_leap *)
Definition is_leap (y : Z) : bool :=
  ((Z.rem y 4 =? 0) && negb (Z.rem y 100 =? 0)) || (Z.rem y 400 =? 0).
Definition ylen (y : Z) : Z := if is_leap y then 366 else 365.

(** src/mln_tools.c:356-360 the loop over years *)
Fixpoint year_loop (fuel : nat) (days cnt y : Z) : option (Z * Z) :=
  match fuel with
  | O => None
  | S f => if cnt + ylen (1970 + y) <=? days then year_loop f days (cnt + ylen (1970 + y)) (y + 1) else Some (cnt, y)
  end.
(** src/mln_tools.c:365-368 the loop over months *)
Fixpoint month_loop (fuel : nat) (leap : bool) (subdays cnt m : Z) : option (Z * Z) :=
  match fuel with
  | O => None
  | S f => d <- mon_days leap m ;; if cnt + d <=? subdays then month_loop f leap subdays (cnt + d) (m + 1) else Some (cnt, m)
  end.
(** src/mln_tools.c:374-376, 447-449 day of the week; [year >> 2] is a shift, the other divisions are C divisions *)
Definition weekday (y m d : Z) : Z :=
  let month := if m <? 3 then m + 12 else m in
  let year := if m <? 3 then y - 1 else y in
  Z.rem (d + 1 + 2 * month + Z.quot (3 * (month + 1)) 5 + year + Z.shiftr year 2 - Z.quot year 100 + Z.quot year 400) 7.

(** src/mln_tools.c:350-377 mln_time2utc *)
Definition time2utc (tm : Z) : option utc :=
  let days := Z.quot tm 86400 in
  let subsec := Z.rem tm 86400 in
  r <- year_loop (S (Z.to_nat (days / 365))) days 0 0 ;;
  let '(cnt, y) := r in
  let y := y + 1970 in
  let leap := is_leap y in
  let subdays := days - cnt in
  r <- month_loop 13 leap subdays 0 0 ;;
  let '(cnt, m) := r in
  let m := m + 1 in
  let d := subdays - cnt + 1 in
  Some (U y m d (Z.quot subsec 3600) (Z.quot (Z.rem subsec 3600) 60) (Z.rem (Z.rem subsec 3600) 60) (weekday y m d)).

(** src/mln_tools.c:384-386 the years down to 1970; [n] is their number *)
Fixpoint sum_years (n : nat) (y : Z) : Z :=
  match n with O => 0 | S n => ylen y + sum_years n (y - 1) end.
(** src/mln_tools.c:387-389 the months [n-1] down to 0 *)
Fixpoint sum_months (n : nat) (leap : bool) : option Z :=
  match n with O => Some 0 | S n => d <- mon_days leap (Z.of_nat n) ;; r <- sum_months n leap ;; Some (d + r) end.
(** src/mln_tools.c:379-395 mln_utc2time; the loops run [year - 1970] and [month - 1] times, or not at all *)
Definition utc2time (u : utc) : option Z :=
  let ret := sum_years (Z.to_nat (year u - 1970)) (year u - 1) in
  ms <- sum_months (Z.to_nat (month u - 1)) (is_leap (year u)) ;;
  Some ((ret + ms + (day u - 1)) * 86400 + (hour u * 3600 + minute u * 60 + second u)).

(** src/mln_tools.c:426-434 the loop of mln_utc_adjust: day, month, year and whether anything was changed *)
Fixpoint adjust_loop (fuel : nat) (d m y : Z) (adj : bool) : option (Z * Z * Z * bool) :=
  match fuel with
  | O => None
  | S f =>
      l <- mon_days (is_leap y) (m - 1) ;;
      if l <? d then
        let '(m', y') := if 12 <? m + 1 then (1, y + 1) else (m + 1, y) in
        adjust_loop f (d - l) m' y' true
      else Some (d, m, y, adj)
  end.
(** src/mln_tools.c:397-451 mln_utc_adjust *)
Definition utc_adjust (u : utc) : option utc :=
  let '(s, c) := if 60 <=? second u then (Z.rem (second u) 60, Z.quot (second u) 60) else (second u, 0) in
  let mi := minute u + c in
  let '(mi, c) := if 60 <=? mi then (Z.rem mi 60, Z.quot mi 60) else (mi, 0) in
  let h := hour u + c in
  let '(h, c) := if 24 <=? h then (Z.rem h 24, Z.quot h 24) else (h, 0) in
  let d := day u + c in
  r <- adjust_loop (S (Z.to_nat d)) d (month u) (year u) false ;;
  let '(d, m', y', adj) := r in
  let '(m, y) := if adj then (m', y') else (month u, year u) in
  let '(m, c) := if 12 <=? m - 1 then (Z.rem (m - 1) 12 + 1, Z.quot (m - 1) 12) else (m, 0) in
  let y := y + c in
  Some (U y m d h mi s (weekday y m d)).

(** src/mln_tools.c:453-455 mln_month_days *)
Definition month_days (y m : Z) : option Z := mon_days (is_leap y) (m - 1).

(** src/mln_tools.c:457-522 mln_s2time. The text is a list of bytes; [gen] selects the 15-byte form with a four-digit year, otherwise the
    13-byte form with a two-digit year. *)
Inductive s2res := S2Err | S2Ok (t : Z).
Definition isdigit (c : N) : bool := (48 <=? c)%N && (c <=? 57)%N.
Definition dig (s : list N) (i : nat) : Z := Z.of_N (nth i s 0%N) - 48.
Definition two (s : list N) (i : nat) : Z := dig s i * 10 + dig s (i + 1).
(** src/mln_tools.c:509-514 *)
Fixpoint add_years (n : nat) (y : Z) : Z := match n with O => 0 | S n => ylen y + add_years n (y + 1) end.
Definition s2time (s : list N) (gen : bool) : option s2res :=
  let len := if gen then 15%nat else 13%nat in
  if negb (length s =? len)%nat || (negb (nth (len - 1) s 0 =? 90)%N && negb (nth (len - 1) s 0 =? 122)%N) then Some S2Err
  else if negb (forallb isdigit (firstn (len - 1) s)) then Some S2Err
  else
    let '(y, i) := if gen then (dig s 0 * 1000 + dig s 1 * 100 + dig s 2 * 10 + dig s 3, 4%nat)
                   else (if 50 <=? two s 0 then two s 0 + 1900 else two s 0 + 2000, 2%nat) in
    let m := two s i in let d := two s (i + 2) in
    let h := two s (i + 4) in let mi := two s (i + 6) in let sec := two s (i + 8) in
    if (y <? 1970) || (12 <? m) then Some S2Err
    else
      l <- mon_days (is_leap y) (m - 1) ;;
      if (l <? d) || (24 <=? h) || (60 <=? mi) || (60 <=? sec) then Some S2Err
      else
        ms <- sum_months (Z.to_nat (m - 1)) (is_leap y) ;;
        let d := d + add_years (Z.to_nat (y - 1970)) 1970 + ms - 1 in
        Some (S2Ok (d * 86400 + (h * 3600 + mi * 60 + sec))).

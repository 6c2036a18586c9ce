(** Model of src/mln_cron.c. A field is the list of its bytes; in the code it is followed by a zero byte, because mln_string_slice overwrites the
    separators. [None] stands for a read outside the table of month lengths (in mln_utc_adjust). *)
Require Import List Arith NArith ZArith Bool.
Require Import Verif.Base Verif.StrModel Verif.CalModel.
Import ListNotations.
Open Scope Z_scope.

(** atol of the C library: blanks, a sign, decimal digits. Saturation is not modelled: only values below 60 matter. *)
Definition is_blank (c : N) : bool := (c =? 32)%N || ((9 <=? c)%N && (c <=? 13)%N).
Fixpoint skip_blank (s : list N) : list N := match s with [] => [] | c :: r => if is_blank c then skip_blank r else s end.
Fixpoint atol_digits (acc : Z) (s : list N) : Z :=
  match s with [] => acc | c :: r => if isdigit c then atol_digits (acc * 10 + (Z.of_N c - 48)) r else acc end.
Definition atol (s : list N) : Z :=
  match skip_blank s with
  | [] => 0
  | c :: r => if (c =? 45)%N then - atol_digits 0 r else if (c =? 43)%N then atol_digits 0 r else atol_digits 0 (c :: r)
  end.

(** The search from the end for a slash (e.g. src/mln_cron.c:72-79): the bytes before it and those after it. *)
Fixpoint last_slash (s : list N) : option (list N * list N) :=
  match s with
  | [] => None
  | c :: r => match last_slash r with
              | Some (a, b) => Some (c :: a, b)
              | None => if (c =? 47)%N then Some ([], r) else None
              end
  end.

(** What differs between the five functions: bounds of the period; smallest value before a comma and at the end; the bound of the values; the most
    digits; what is added to a value that has passed; whether 7 means 0 at the end; the rule for keeping the nearest value. *)
Record rule := Rule { per_lo : Z; per_hi : Z; mid_lo : Z; end_lo : Z; val_hi : Z; digits : nat; turn : Z; seven : bool;
                      pick : Z -> Z -> Z -> Z (* period, save, value *); star_save : Z -> Z (* period *) }.

(** src/mln_cron.c:82-119, 141-191, ...: [tok] are the bytes from [head] to [p], [s] those from [p] to [end]. The result is -1 or [save]. *)
Definition value_ok (lo hi v : Z) : bool := (lo <=? v) && (v <? hi).
Fixpoint field_loop (r : rule) (cur period : Z) (save : Z) (tok s : list N) : Z :=
  match s with
  | [] =>
      match tok with
      | [] => save
      | _ =>
          if (digits r <? length tok)%nat then -1
          else
            let v := atol tok in
            let v := if seven r && (v =? 7) then 0 else v in
            if negb (value_ok (end_lo r) (val_hi r) v) then -1
            else let v := if v <? cur then v + turn r else v in pick r period save v
      end
  | c :: s' =>
      if (c =? 44)%N then
        match tok with
        | [] => -1
        | _ =>
            if (digits r <? length tok)%nat then -1
            else
              let v := atol tok in
              if negb (value_ok (mid_lo r) (val_hi r) v) then -1
              else let v := if v <? cur then v + turn r else v in field_loop r cur period (pick r period save v) [] s'
        end
      else if (c =? 42)%N then
        let save := star_save r period in
        match s' with
        | d :: s'' => if (d =? 44)%N then field_loop r cur period save [] s'' else field_loop r cur period save [] s'
        | [] => field_loop r cur period save [] s'
        end
      else if isdigit c then field_loop r cur period save (tok ++ [c]) s'
      else -1
  end.
(** The rest of the five functions; [alone] is the answer for a lone star. *)
Definition parse_field (r : rule) (cur alone : Z) (s : list N) : Z :=
  match s with
  | [] => -1
  | _ =>
      if match s with [c] => (c =? 42)%N | _ => false end then alone
      else
        match last_slash s with
        | Some (a, b) => let period := atol b in
                         if negb (value_ok (per_lo r) (per_hi r) period) then -1 else field_loop r cur period 0 [] a
        | None => field_loop r cur 0 0 [] s
        end
  end.

(** src/mln_cron.c:90-95, 114-119 the rule of mln_cron_parse_minute *)
Definition pick_minute (min period save v : Z) : Z :=
  if save =? 0 then if min =? v then min + period else v
  else if ((v =? min) && (period <? save - min)) || (v - min <? save - min) then if min =? v then min + period else v
  else save.
(** src/mln_cron.c:151-160 and the same code in the other functions *)
Definition pick_other (cur : Z) (greater : bool) (period save v : Z) : Z :=
  if save =? 0 then if (cur =? v) && negb greater then cur + period else v
  else if v =? cur then if greater then v else if period <? save - cur then cur + period else save
  else if v - cur <? save - cur then v
  else save.
Definition step_of (period : Z) : Z := if period =? 0 then 1 else period.

(** src/mln_cron.c:64-121 mln_cron_parse_minute *)
Definition parse_minute (s : list N) (min : Z) : Z :=
  parse_field (Rule 1 60 1 0 60 2 60 false (pick_minute min) (fun p => min + step_of p)) min (min + 1) s.
(** src/mln_cron.c:123-193 mln_cron_parse_hour *)
Definition parse_hour (s : list N) (hour : Z) (greater : bool) : Z :=
  parse_field (Rule 1 24 1 0 24 2 24 false (pick_other hour greater) (fun p => if greater then hour else hour + step_of p)) hour hour s.
(** src/mln_cron.c:195-265 mln_cron_parse_day *)
Definition parse_day (s : list N) (mdays day : Z) (greater : bool) : Z :=
  parse_field (Rule 1 32 1 1 32 2 mdays false (pick_other day greater) (fun p => if greater then day else day + step_of p)) day day s.
(** src/mln_cron.c:267-337 mln_cron_parse_month *)
Definition parse_month (s : list N) (mon : Z) (greater : bool) : Z :=
  parse_field (Rule 1 13 1 1 13 2 12 false (pick_other mon greater) (fun p => if greater then mon else mon + step_of p)) mon mon s.
(** src/mln_cron.c:339-410 mln_cron_parse_week *)
Definition parse_week (s : list N) (week : Z) (greater : bool) : Z :=
  parse_field (Rule 0 7 0 0 7 1 7 true (pick_other week greater) (fun p => if greater then week else week + step_of p)) week week s.

Definition set_minute u x := U (year u) (month u) (day u) (hour u) x (second u) (week u).
Definition set_hour u x := U (year u) (month u) (day u) x (minute u) (second u) (week u).
Definition set_day u x := U (year u) (month u) x (hour u) (minute u) (second u) (week u).
Definition set_month u x := U (year u) x (day u) (hour u) (minute u) (second u) (week u).

(** src/mln_cron.c:28-61 the body of mln_cron_parse once the expression is split; 0 is the error answer. An array of pieces ends with one of
    length zero, and a field of length zero is an error, so no piece beyond the last is read. *)
Definition cron_fields (fs : list (list N)) (base : Z) : option Z :=
  u <- time2utc base ;;
  let m := parse_minute (nth 0 fs []) (minute u) in
  if m <? 0 then Some 0 else
  u <- utc_adjust (set_minute u m) ;; tmp <- utc2time u ;;
  let h := parse_hour (nth 1 fs []) (hour u) (base <? tmp) in
  if h <? 0 then Some 0 else
  u <- utc_adjust (set_hour u h) ;; tmp <- utc2time u ;;
  md <- month_days (year u) (month u) ;;
  let d := parse_day (nth 2 fs []) md (day u) (base <? tmp) in
  if d <? 0 then Some 0 else
  u <- utc_adjust (set_day u d) ;; tmp <- utc2time u ;;
  let mo := parse_month (nth 3 fs []) (month u) (base <? tmp) in
  if mo <? 0 then Some 0 else
  u <- utc_adjust (set_month u mo) ;; tmp <- utc2time u ;;
  let w := parse_week (nth 4 fs []) (week u) (base <? tmp) in
  if w <? 0 then Some 0 else
  u <- utc_adjust (set_day u (day u + (w - week u))) ;;
  utc2time u.
(** src/mln_cron.c:16-62 mln_cron_parse *)
Definition cron_parse (exp : list N) (base : Z) : option Z :=
  fs <- slice exp [32; 9]%N ;; cron_fields fs base.

(** What a cron expression of stars and lists of numbers means. *)
Require Import List Arith NArith ZArith.
Require Import Verif.CalModel.
Import ListNotations.
Open Scope Z_scope.

Inductive field := Any | OneOf (l : list Z).
Definition holds (f : field) (x : Z) : Prop := match f with Any => True | OneOf l => In x l end.

Record cron := Cron { f_minute : field; f_hour : field; f_day : field; f_month : field; f_week : field }.
(** A time matches an expression if every field does. *)
Definition cron_matches (c : cron) (u : utc) : Prop :=
  holds (f_minute c) (minute u) /\ holds (f_hour c) (hour u) /\ holds (f_day c) (day u) /\ holds (f_month c) (month u) /\ holds (f_week c) (week u).

(** The text of an expression: decimal numbers separated by commas, fields separated by blanks. *)
Definition dec (n : Z) : list N := if n <? 10 then [Z.to_N (48 + n)] else [Z.to_N (48 + n / 10); Z.to_N (48 + n mod 10)].
Fixpoint sep_by (c : N) (l : list (list N)) : list N := match l with [] => [] | [x] => x | x :: r => x ++ c :: sep_by c r end.
Definition field_text (f : field) : list N := match f with Any => [42]%N | OneOf l => sep_by 44%N (map dec l) end.
Definition cron_text (c : cron) : list N := sep_by 32%N (map field_text [f_minute c; f_hour c; f_day c; f_month c; f_week c]).

(** A field whose values lie in [lo, hi]. *)
Definition within (f : field) (lo hi : Z) : Prop := match f with Any => True | OneOf l => l <> [] /\ Forall (fun x => lo <= x <= hi) l end.
(** The ranges of the five fields. *)
Definition well_formed (c : cron) : Prop :=
  within (f_minute c) 0 59 /\ within (f_hour c) 0 23 /\ within (f_day c) 1 31 /\ within (f_month c) 1 12 /\ within (f_week c) 0 6.
(** Zero is nowhere but at the end of a list. *)
Definition zero_last (f : field) : Prop := match f with Any => True | OneOf l => ~ In 0 (removelast l) end.
(** No matching time after [base] comes before [r] at a distance from [r] that is a multiple of [d] seconds. *)
Definition none_before (c : cron) (base r d : Z) : Prop := forall t u, base < t < r -> (r - t) mod d = 0 -> time2utc t = Some u -> ~ cron_matches c u.

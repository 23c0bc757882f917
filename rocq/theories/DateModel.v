(** * Model of GetTimeDir (help/utils/times.go)

    time.Now().Format("2006/01/02"), Go 1.18.  The clock is a parameter: the seconds since 1970-01-01
    00:00:00 UTC and the offset of the local zone at that moment, in seconds. *)
From Verif Require Export ConvModel.
Local Open Scope Z_scope.

(** time.go: constants of the calendar *)
Definition seconds_per_day : Z := 86400.
Definition days_per_400_years : Z := 365 * 400 + 97.
Definition days_per_100_years : Z := 365 * 100 + 24.
Definition days_per_4_years : Z := 365 * 4 + 1.
Definition absolute_zero_year : Z := -292277022399.
Definition unix_to_internal : Z := (1969 * 365 + 1969 / 4 - 1969 / 100 + 1969 / 400) * seconds_per_day.
(** -(absoluteZeroYear - internalYear) * 365.2425 * secondsPerDay *)
Definition internal_to_absolute : Z := - (absolute_zero_year - 1) * 146097 / 400 * seconds_per_day.
Definition days_before : list Z := [0; 31; 59; 90; 120; 151; 181; 212; 243; 273; 304; 334; 365].
Definition is_leap (y : Z) : bool := (y mod 4 =? 0) && (negb (y mod 100 =? 0) || (y mod 400 =? 0)).
(** Time.abs *)
Definition abs_time (sec offset : Z) : Z := u64 (sec + offset + (unix_to_internal + internal_to_absolute)).
(** absDate: year and day of the year of a day number *)
Definition abs_year (d : Z) : Z * Z :=
  let n := d / days_per_400_years in let y := 400 * n in let d := d - days_per_400_years * n in
  let n := d / days_per_100_years in let n := n - Z.shiftr n 2 in let y := y + 100 * n in let d := d - days_per_100_years * n in
  let n := d / days_per_4_years in let y := y + 4 * n in let d := d - days_per_4_years * n in
  let n := d / 365 in let n := n - Z.shiftr n 2 in let y := y + n in let d := d - 365 * n in
  (y + absolute_zero_year, d).
Definition month_day (year yday : Z) : Z * Z :=
  if is_leap year && (yday =? 31 + 29 - 1) then (2, 29) else
  let day := if is_leap year && (31 + 29 - 1 <? yday) then yday - 1 else yday in
  let month := day / 31 in
  let end_ := nth (Z.to_nat (month + 1)) days_before 0 in
  let '(month, begin) := if end_ <=? day then (month + 1, end_) else (month, nth (Z.to_nat month) days_before 0) in
  (month + 1, day - begin + 1).
Definition abs_date (abs : Z) : Z * Z * Z :=
  let '(year, yday) := abs_year (abs / seconds_per_day) in
  let '(month, day) := month_day year yday in (year, month, day).
(** format.go: appendInt *)
Definition append_int (x : Z) (width : nat) : gostr :=
  let digits := fmt_digits 20 (u64 (Z.abs x)) in
  (if x <? 0 then [45] else []) ++ replicate (width - length digits) 48 ++ digits.
(** times.go:25-29: the layout 2006/01/02 is year, '/', two-digit month, '/', two-digit day *)
Definition get_time_dir (sec offset : Z) : gostr :=
  let '(year, month, day) := abs_date (abs_time sec offset) in
  append_int year 4 ++ [47] ++ append_int month 2 ++ [47] ++ append_int day 2.

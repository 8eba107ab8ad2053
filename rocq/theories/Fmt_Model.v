(** Model of calculaters/mysql_funcs/datetime_funcs.py: parts of dates and formats. strftime is that of glibc in the C locale as Python calls it (no
    padding of years); directives other than those listed are left open ([other]). Operands are dates and datetimes (texts are parsed by package syncany). *)
From Verif Require Import Base PyVal Utils_Model Str_Model Date_Model.
Set Implicit Arguments.
Open Scope Z_scope.

Section Fmt.
Variable other : N -> moment -> text.
(** Fields of struct tm. A date is midnight. *)
Definition micros (x : moment) : Z := match us x with Some u => u | None => 0 end.
Definition tm_hour (x : moment) : Z := micros x / 3600000000.
Definition tm_min (x : moment) : Z := micros x / 60000000 mod 60.
Definition tm_sec (x : moment) : Z := micros x / 1000000 mod 60.
Definition tm_yday (x : moment) : Z := days_before_month (yr x) (mo x) + dy x - 1.
(** Sunday is 0 *)
Definition tm_wday (x : moment) : Z := (mysql_weekday x + 1) mod 7.
Definition day_names := [t "Sunday"; t "Monday"; t "Tuesday"; t "Wednesday"; t "Thursday"; t "Friday"; t "Saturday"].
Definition month_names := [t "January"; t "February"; t "March"; t "April"; t "May"; t "June"; t "July"; t "August"; t "September"; t "October"; t "November"; t "December"].
Definition day_name (x : moment) : text := nth (Z.to_nat (tm_wday x)) day_names [].
Definition month_name (x : moment) : text := nth (Z.to_nat (mo x - 1)) month_names [].
(** glibc iso_week_days: days since the Monday of week 1 of the ISO year, for day [yday] with weekday [wday] of a year. *)
Definition iso_week_days (yday wday : Z) : Z := yday - (yday - wday + 4 + 378) mod 7 + 4 - 1.
Definition year_days (y : Z) : Z := if py_is_leap y then 366 else 365.
Definition iso_days (x : moment) : Z :=
  let days := iso_week_days (tm_yday x) (tm_wday x) in
  if days <? 0 then iso_week_days (tm_yday x + year_days (yr x - 1)) (tm_wday x)
  else let d := iso_week_days (tm_yday x - year_days (yr x)) (tm_wday x) in if 0 <=? d then d else days.
Definition time_of (x : moment) : text := pad 2 (tm_hour x) ++ t ":" ++ pad 2 (tm_min x) ++ t ":" ++ pad 2 (tm_sec x).
Definition directive (c : N) (x : moment) : text :=
  if (c =? 89)%N then str_of_Z (yr x)                                          (* Y *)
  else if (c =? 121)%N then pad 2 (yr x mod 100)                               (* y *)
  else if (c =? 109)%N then pad 2 (mo x)                                       (* m *)
  else if (c =? 98)%N then firstn 3 (month_name x)                             (* b *)
  else if (c =? 66)%N then month_name x                                        (* B *)
  else if (c =? 100)%N then pad 2 (dy x)                                       (* d *)
  else if (c =? 106)%N then pad 3 (tm_yday x + 1)                              (* j *)
  else if (c =? 72)%N then pad 2 (tm_hour x)                                   (* H *)
  else if (c =? 73)%N then pad 2 (let h := if 12 <? tm_hour x then tm_hour x - 12 else tm_hour x in if h =? 0 then 12 else h)   (* I *)
  else if (c =? 77)%N then pad 2 (tm_min x)                                    (* M *)
  else if (c =? 83)%N then pad 2 (tm_sec x)                                    (* S *)
  else if (c =? 102)%N then pad 6 (micros x mod 1000000)                       (* f: Python *)
  else if (c =? 112)%N then (if 11 <? tm_hour x then t "PM" else t "AM")       (* p *)
  else if (c =? 84)%N then time_of x                                           (* T *)
  else if (c =? 85)%N then pad 2 ((tm_yday x - tm_wday x + 7) / 7)             (* U *)
  else if (c =? 87)%N then pad 2 ((tm_yday x - (tm_wday x - 1 + 7) mod 7 + 7) / 7)   (* W *)
  else if (c =? 86)%N then pad 2 (iso_days x / 7 + 1)                          (* V *)
  else if (c =? 119)%N then pad 1 (tm_wday x)                                  (* w *)
  else if (c =? 97)%N then firstn 3 (day_name x)                               (* a *)
  else if (c =? 65)%N then day_name x                                          (* A *)
  else if (c =? 37)%N then t "%"
  else other c x.
Fixpoint strftime (f : text) (x : moment) : text :=
  match f with
  | [] => []
  | c :: r => if (c =? 37)%N then match r with d :: r => directive d x ++ strftime r x | [] => other 0 x end else c :: strftime r x
  end.
(** datetime_funcs.py:313-319 mysql_date_format, 321-327 mysql_time_format *)
Definition mysql_date_format (x : moment) (f : text) : text := strftime (py_replace f (t "%v") (t "%V")) x.
Definition mysql_time_format (x : moment) (f : text) : text := strftime (py_replace f (t "%v") (t "%V")) x.
(** 153-159, 161-167; 145-151, 201-207, 209-215 *)
Definition mysql_monthname (x : moment) : text := strftime (t "%b") x.
Definition mysql_dayname (x : moment) : text := strftime (t "%A") x.
Definition mysql_month (x : moment) : Z := mo x.
Definition mysql_dayofmonth (x : moment) : Z := dy x.
Definition mysql_year (x : moment) : Z := yr x.
(** 177-183 mysql_week, 185-191 mysql_yearweek: [one] is str(mod) == "1". *)
Definition mysql_week (x : moment) (one : bool) : res Z := int_of_text (strftime (if one then t "%W" else t "%U") x).
Definition mysql_yearweek (x : moment) (one : bool) : res Z := int_of_text (strftime (if one then t "%Y%W" else t "%Y%U") x).
(** 91-101 mysql_date, 103-117 mysql_datetime, 119-131 mysql_time (microseconds since midnight) *)
Definition mysql_date (x : moment) : moment := mkmoment (yr x) (mo x) (dy x) None.
Definition mysql_datetime (x : moment) : moment := match us x with Some _ => x | None => mkmoment (yr x) (mo x) (dy x) (Some 0) end.
Definition mysql_time (x : moment) : Z := match us x with Some u => u | None => 0 end.
End Fmt.
(** 133-137 mysql_unix_timestamp, 139-143 mysql_from_unixtime. [zone] is the offset of the session's time zone and [local] that of the host's, in seconds
    east of UTC (zones of constant offset). time.mktime reads the UTC fields as local time. *)
Definition epoch : moment := mkmoment 1970 1 1 (Some 0).
Definition mysql_from_unixtime (zone : Z) (s : Z) : res moment := add_td epoch ((s + zone) * 1000000).
Definition seconds_of (x : moment) : Z := (ymd2ord (yr x) (mo x) (dy x) - ymd2ord 1970 1 1) * 86400 + micros x / 1000000.
Definition mysql_unix_timestamp (zone local : Z) (x : moment) : Z := seconds_of x - zone - local.

(** Specification of the parts of dates and of DATE_FORMAT, independent of the model: MySQL's documentation. *)
From Verif Require Import Base Utils_Spec Date_Spec.
Open Scope Z_scope.

(** Weekday, 0 for Monday: 1 January of the year 1 is a Monday in this calendar. *)
Definition weekday (d : day) (w : Z) : Prop := exists n, days_after n (1, 1, 1) d /\ w = Z.of_nat n mod 7.
Definition year_of (d : day) : Z := fst (fst d).
(** Number of the week within the year when weeks begin with weekday [first] and week 1 begins with the first such day of the year; the days before it
    are in week 0. *)
Inductive week_number (first : Z) : day -> Z -> Prop :=
| wn_new_year : forall y w, weekday (y, 1, 1) w -> week_number first (y, 1, 1) (if w =? first then 1 else 0)
| wn_next : forall d n w, week_number first d n -> year_of (next_day d) = year_of d -> weekday (next_day d) w ->
    week_number first (next_day d) (if w =? first then n + 1 else n).
(** ISO 8601: a week belongs to the year of its Thursday, and is numbered by the Thursdays of that year. *)
Definition iso_week (d : day) (n : Z) : Prop :=
  exists w k thursday, weekday d w /\ weekday thursday 3 /\ week_number 3 thursday n /\
    (k <= 3)%nat /\ (w <= 3 /\ days_after k d thursday /\ Z.of_nat k = 3 - w \/ 3 < w /\ days_after k thursday d /\ Z.of_nat k = w - 3).

(** Time of day: [u] microseconds after midnight. *)
Definition clock (u h m s f : Z) : Prop :=
  u = ((h * 60 + m) * 60 + s) * 1000000 + f /\ 0 <= m < 60 /\ 0 <= s < 60 /\ 0 <= f < 1000000.

(** [s] is [z] in [n] decimal digits. *)
Definition shows (n : nat) (z : Z) (s : text) : Prop := length s = n /\ Forall digit s /\ decval s = z.
Definition weekday_name (w : Z) : text := nth (Z.to_nat w) [t "Monday"; t "Tuesday"; t "Wednesday"; t "Thursday"; t "Friday"; t "Saturday"; t "Sunday"] [].
Definition month_name (m : Z) : text :=
  nth (Z.to_nat (m - 1)) [t "January"; t "February"; t "March"; t "April"; t "May"; t "June"; t "July"; t "August"; t "September"; t "October"; t "November"; t "December"] [].

(** The format directives that are read by the code as MySQL documents them. *)
Inductive directive :=
| Year4 | Year2 | Month | MonthAbbr | DayOfMonth | DayOfYear | Hour24 | Hour12 | Second | Micro | AmPm | Time24 | WeekSunday | WeekIso | WeekdayNumber | WeekdayAbbr | Percent.
Definition letter (d : directive) : N :=
  match d with
  | Year4 => 89 | Year2 => 121 | Month => 109 | MonthAbbr => 98 | DayOfMonth => 100 | DayOfYear => 106 | Hour24 => 72 | Hour12 => 73 | Second => 83 | Micro => 102
  | AmPm => 112 | Time24 => 84 | WeekSunday => 85 | WeekIso => 118 | WeekdayNumber => 119 | WeekdayAbbr => 97 | Percent => 37
  end%N.
(** What a directive shows for day [d] and time of day [u]. *)
Definition says (d : day) (u : Z) (x : directive) (s : text) : Prop :=
  let '(y, mo, dy) := d in
  exists h mi se f, clock u h mi se f /\
  match x with
  | Year4 => shows 4 y s
  | Year2 => shows 2 (y mod 100) s
  | Month => shows 2 mo s
  | MonthAbbr => s = firstn 3 (month_name mo)
  | DayOfMonth => shows 2 dy s
  | DayOfYear => exists n, days_after n (y, 1, 1) d /\ shows 3 (Z.of_nat n + 1) s
  | Hour24 => shows 2 h s
  | Hour12 => shows 2 (if h mod 12 =? 0 then 12 else h mod 12) s
  | Second => shows 2 se s
  | Micro => shows 6 f s
  | AmPm => s = if h <? 12 then t "AM" else t "PM"
  | Time24 => exists a b c, s = a ++ t ":" ++ b ++ t ":" ++ c /\ shows 2 h a /\ shows 2 mi b /\ shows 2 se c
  | WeekSunday => exists n, week_number 6 d n /\ shows 2 n s
  | WeekIso => exists n, iso_week d n /\ shows 2 n s
  | WeekdayNumber => exists w, weekday d w /\ shows 1 ((w + 1) mod 7) s
  | WeekdayAbbr => exists w, weekday d w /\ s = firstn 3 (weekday_name w)
  | Percent => s = t "%"
  end.
(** A format: text without percent signs, and directives. *)
Inductive fpiece := FText (s : text) | FDir (x : directive).
Definition piece_text (p : fpiece) : text := match p with FText s => s | FDir x => [37%N; letter x] end.
Definition format_text (ps : list fpiece) : text := concat (map piece_text ps).
Definition piece_says (d : day) (u : Z) (p : fpiece) (s : text) : Prop := match p with FText x => s = x | FDir x => says d u x s end.
(** Text pieces have no percent sign and are not empty; the letter v does not follow a double percent sign. *)
Fixpoint format_ok (ps : list fpiece) : Prop :=
  match ps with
  | [] => True
  | p :: r => match p with FText s => s <> [] /\ ~ In 37%N s | FDir Percent => match r with FText (c :: _) :: _ => c <> 118%N | _ => True end | _ => True end /\ format_ok r
  end.

(** MySQL's mode 1: weeks begin on Monday and week 1 is the first with four days in the year. *)
Definition week_mode1 (d : day) (n : Z) : Prop :=
  exists m w, week_number 0 d m /\ weekday (year_of d, 1, 1) w /\ n = if (1 <=? w) && (w <=? 3) then m + 1 else m.
(** MySQL's YEARWEEK: the year and the number of the week that contains the day, both read off the week's first day, a Sunday. *)
Definition year_week (d : day) (v : Z) : Prop :=
  exists k sunday n, (k <= 6)%nat /\ days_after k sunday d /\ weekday sunday 6 /\ week_number 6 sunday n /\ v = year_of sunday * 100 + n.

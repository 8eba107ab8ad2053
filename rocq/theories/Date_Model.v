(** Model of syncanysql/calculaters/mysql_funcs/datetime_funcs.py: interval arithmetic, differences and parts of dates.

    A value is a datetime.date (no time of day) or a datetime.datetime (microseconds since midnight; Python adds
    timedeltas to wall-clock time, so the time zone plays no part). The calendar functions of Python's datetime
    module are modelled after CPython's Lib/datetime.py. Not modelled: parse_datetime (package syncany; text operands are taken as already parsed),
    strftime, the current time, the typing_filter decorators, and datetime.time operands. *)
From Coq Require Import SpecFloat.
From Verif Require Import Base PyVal Utils_Model Agg_Model.
Open Scope Z_scope.

(** ** Python's datetime module *)

Definition py_is_leap (y : Z) : bool := (y mod 4 =? 0) && (negb (y mod 100 =? 0) || (y mod 400 =? 0)).
Definition DAYS_IN_MONTH : list Z := [-1; 31; 28; 31; 30; 31; 30; 31; 31; 30; 31; 30; 31].
Definition DAYS_BEFORE_MONTH : list Z := [-1; 0; 31; 59; 90; 120; 151; 181; 212; 243; 273; 304; 334].
Definition nthz (l : list Z) (i : Z) : Z := nth (Z.to_nat i) l 0.
Definition days_in_month (y m : Z) : Z := if (m =? 2) && py_is_leap y then 29 else nthz DAYS_IN_MONTH m.
Definition days_before_year (y : Z) : Z := let p := y - 1 in p * 365 + p / 4 - p / 100 + p / 400.
Definition days_before_month (y m : Z) : Z := nthz DAYS_BEFORE_MONTH m + (if (2 <? m) && py_is_leap y then 1 else 0).
Definition ymd2ord (y m d : Z) : Z := days_before_year y + days_before_month y m + d.
Definition ord2md (leap : bool) (n : Z) : Z * Z :=
  let month := (n + 50) / 32 in
  let preceding := nthz DAYS_BEFORE_MONTH month + (if (2 <? month) && leap then 1 else 0) in
  if n <? preceding
  then let month := month - 1 in
       let preceding := preceding - (nthz DAYS_IN_MONTH month + (if (month =? 2) && leap then 1 else 0)) in
       (month, n - preceding + 1)
  else (month, n - preceding + 1).
Definition ord2ymd (n : Z) : Z * Z * Z :=
  let n := n - 1 in
  let n400 := n / 146097 in let n := n mod 146097 in
  let n100 := n / 36524 in let n := n mod 36524 in
  let n4 := n / 1461 in let n := n mod 1461 in
  let n1 := n / 365 in let n := n mod 365 in
  let year := n400 * 400 + 1 + n100 * 100 + n4 * 4 + n1 in
  if (n1 =? 4) || (n100 =? 4) then (year - 1, 12, 31)
  else let leap := (n1 =? 3) && (negb (n4 =? 24) || (n100 =? 3)) in
       let '(m, d) := ord2md leap n in (year, m, d).
Definition MAXORDINAL : Z := 3652059.

Record moment := mkmoment { yr : Z; mo : Z; dy : Z; us : option Z }.

(** dt.replace(year=, month=, day=): ValueError when that is no date (for years beyond the C int range an
    OverflowError instead, with the same effect on every caller). *)
Definition replace_ymd (dt : moment) (y m d : Z) : res moment :=
  if (1 <=? y) && (y <=? 9999) && (1 <=? m) && (m <=? 12) && (1 <=? d) && (d <=? days_in_month y m)
  then Ok (mkmoment y m d (us dt)) else Err ValueError.

Definition DAY_US : Z := 86400000000.
(** dt + timedelta(microseconds=x): a date moves by the timedelta's days, rounded down. *)
Definition of_days (n : Z) (u : option Z) : res moment :=
  if (1 <=? n) && (n <=? MAXORDINAL) then let '(y, m, d) := ord2ymd n in Ok (mkmoment y m d u) else Err OverflowError.
Definition add_td (dt : moment) (x : Z) : res moment :=
  let n := ymd2ord (yr dt) (mo dt) (dy dt) in
  match us dt with
  | None => of_days (n + x / DAY_US) None
  | Some u => of_days (n + (u + x) / DAY_US) (Some ((u + x) mod DAY_US))
  end.
(** dt - timedelta(microseconds=x): for a date, dt + timedelta(-days), again with the days rounded down first. *)
Definition sub_td (dt : moment) (x : Z) : res moment :=
  let n := ymd2ord (yr dt) (mo dt) (dy dt) in
  match us dt with
  | None => of_days (n - x / DAY_US) None
  | Some u => of_days (n + (u - x) / DAY_US) (Some ((u - x) mod DAY_US))
  end.

(** ** datetime_funcs.py *)

(** datetime_funcs.py:13-15 TIMEDELTA_UNITS, in seconds. *)
Definition TIMEDELTA_UNITS : list (text * Z) :=
  [(t "YEAR", 365 * 24 * 60 * 60); (t "QUARTER", 90 * 24 * 60 * 60); (t "MONTH", 30 * 24 * 60 * 60);
   (t "WEEK", 7 * 24 * 60 * 60); (t "DAY", 24 * 60 * 60); (t "HOUR", 3600); (t "MINUTE", 60); (t "SECOND", 1);
   (t "MICROSECOND", 1)].

(** datetime_funcs.py:33-39: the search for the last day that exists. *)
Fixpoint earlier_day (fuel : nat) (dt : moment) (y m d : Z) : option moment :=
  match fuel with
  | O => None
  | S fuel =>
    if 1 <=? d
    then match replace_ymd dt y m d with Ok x => Some x | Err _ => earlier_day fuel dt y m (d - 1) end
    else None
  end.
(** datetime_funcs.py:19-43 calculate. *)
Definition calculate (is_sub : bool) (dt : moment) (unit : text) (value : Z) : res (option moment) :=
  if text_eqb unit (t "YEAR")
  then do x <- replace_ymd dt (if is_sub then yr dt - value else yr dt + value) (mo dt) (dy dt); Ok (Some x)
  else if text_eqb unit (t "QUARTER") || text_eqb unit (t "MONTH")
  then let months := if text_eqb unit (t "QUARTER") then value * 3 else value in
       do f <- py_div (VInt months) (VInt 12);
       do q <- py_int f;
       do q <- (match q with VInt q => Ok q | _ => Err TypeError end);
       let '(new_year, new_month) :=
         if is_sub
         then (yr dt - q - (if mo dt - months mod 12 <? 1 then 1 else 0),
               mo dt - months mod 12 + (if mo dt - months mod 12 <? 1 then 12 else 0))
         else (yr dt + q + (if 12 <? mo dt + months mod 12 then 1 else 0),
               (mo dt + months mod 12) mod 12) in
       match replace_ymd dt new_year new_month (dy dt) with
       | Ok x => Ok (Some x)
       | Err _ => Ok (earlier_day (Z.to_nat (dy dt)) dt new_year new_month (dy dt - 1))
       end
  else match assoc unit TIMEDELTA_UNITS with
       | Some s => let td := s * value * 1000000 in
                   do x <- (if is_sub then sub_td dt td else add_td dt td); Ok (Some x)
       | None => Ok None
       end.

(** TIME_INTERVAL_RE, datetime_funcs.py:16: a backtracking match of the seven optional groups. Digits are the ASCII
    digits. A group of digits closed by a separator can only take the whole run of digits. *)
Definition digit (c : N) : bool := ((48 <=? c) && (c <=? 57))%N.
Fixpoint run (s : text) : text * text :=
  match s with
  | c :: r => if digit c then let '(a, b) := run r in (c :: a, b) else ([], s)
  | [] => ([], [])
  end.
Definition closed_group (sep : N -> bool) (s : text) : option (text * text) :=
  match run s with
  | ([], _) => None
  | (a, c :: r) => if sep c then Some (a ++ [c], r) else None
  | (_, []) => None
  end.
Definition year_group (s : text) : option (text * text) :=
  match s with
  | a :: b :: c :: d :: e :: r =>
    if digit a && digit b && digit c && digit d && (e =? 45)%N then Some ([a; b; c; d; e], r) else None
  | _ => None
  end.
Definition is_space (c : N) : bool := (c =? 32)%N || ((9 <=? c) && (c <=? 13))%N.
Definition at_end (s : text) : bool := match s with [] => true | [c] => (c =? 10)%N | _ => false end.
(** (\d+?)? -- the prefixes of the run of digits, shortest first; (:\d+)? and (\.\d+)? -- longest first. *)
Fixpoint prefixes (n : nat) (s : text) : list (text * text) :=
  match n with O => [] | S n => prefixes n s ++ [(firstn (S n) s, skipn (S n) s)] end.
Definition lazy_digits (s : text) : list (text * text) := prefixes (length (fst (run s))) s.
Definition marked_digits (c : N) (s : text) : list (text * text) :=
  match s with
  | x :: r => if (x =? c)%N then map (fun p => (x :: fst p, snd p)) (rev (lazy_digits r)) else []
  | [] => []
  end.
Fixpoint first_some {A B} (f : A -> option B) (l : list A) : option B :=
  match l with [] => None | x :: r => match f x with Some y => Some y | None => first_some f r end end.
Definition opt_group {B} (alts : list (text * text)) (s : text) (k : option text -> text -> option B) : option B :=
  match first_some (fun p => k (Some (fst p)) (snd p)) alts with Some y => Some y | None => k None s end.
Definition one {A} (o : option A) : list A := match o with Some x => [x] | None => [] end.
Definition interval_match (s : text) : option (list (option text)) :=
  opt_group (one (year_group s)) s (fun g1 s =>
  opt_group (one (closed_group (fun c => (c =? 45)%N) s)) s (fun g2 s =>
  opt_group (one (closed_group is_space s)) s (fun g3 s =>
  opt_group (one (closed_group (fun c => (c =? 58)%N) s)) s (fun g4 s =>
  opt_group (lazy_digits s) s (fun g5 s =>
  opt_group (marked_digits 58 s) s (fun g6 s =>
  opt_group (marked_digits 46 s) s (fun g7 s =>
  if at_end s then Some [g1; g2; g3; g4; g5; g6; g7] else None))))))).

(** int(values[i].replace("-", "").replace(".", "").replace(":", "")); a group is never empty. *)
Definition drop_marks (s : text) : text := filter (fun c => negb ((c =? 45) || (c =? 46) || (c =? 58))%N) s.
Definition digits_value (s : text) : Z := fold_left (fun n c => n * 10 + (Z.of_N c - 48)) s 0.
Definition group_value (s : text) : Z := digits_value (filter (fun c => negb (is_space c)) (drop_marks s)).

(** datetime_funcs.py:50-62: the text form of an interval. *)
Fixpoint apply_groups (is_sub : bool) (dt : moment) (gs : list (option text * text)) : res (option moment) :=
  match gs with
  | [] => Ok (Some dt)
  | (None, _) :: r => apply_groups is_sub dt r
  | (Some g, unit) :: r =>
    do x <- calculate is_sub dt unit (group_value g);
    match x with Some dt' => apply_groups is_sub dt' r | None => Ok None end
  end.
Definition UNITS : list text := [t "YEAR"; t "MONTH"; t "DAY"; t "HOUR"; t "MINUTE"; t "SECOND"; t "MICROSECOND"].
Definition shift_groups (v : list (option text)) : list (option text) :=
  match v with
  | [g1; g2; None; Some h; Some m; None; g7] => [g1; g2; None; None; Some h; Some m; g7]
  | _ => v
  end.
Definition text_interval (is_sub : bool) (dt : moment) (interval : text) : res (option moment) :=
  match interval_match interval with
  | None => Ok None
  | Some v => apply_groups is_sub dt (combine (shift_groups v) UNITS)
  end.

(** str.upper() on a unit name; ASCII letters only. *)
Definition upper_ascii (c : N) : N := if ((97 <=? c) && (c <=? 122))%N then (c - 32)%N else c.

(** The interval operand of the functions. *)
Inductive interval :=
| Count (n : Z)                   (* a number, or a text of digits: days *)
| Named (unit : text) (value : Z) (* INTERVAL value unit, with int(value) already taken *)
| Spelled (s : text).             (* any other text *)
(** datetime_funcs.py:45-49 (a unit whose result is None leaves dt = None, and then every path ends in an exception or
    in None) and 233-290 mysql_dateadd, mysql_adddate, mysql_addtime (is_sub = false), mysql_datesub, mysql_subdate,
    mysql_subtime (is_sub = true). NULL also stands for an exception: mysql_calculater.py turns it into NULL. *)
Definition date_shift (is_sub : bool) (dt : moment) (i : interval) : option moment :=
  match i with
  | Count n => match (if is_sub then sub_td dt (n * DAY_US) else add_td dt (n * DAY_US)) with Ok x => Some x | Err _ => None end
  | Named u v => match calculate is_sub dt (map upper_ascii u) v with Ok x => x | Err _ => None end
  | Spelled s => match text_interval is_sub dt s with Ok x => x | Err _ => None end
  end.
Definition date_add := date_shift false.
Definition date_sub := date_shift true.

(** Microseconds since the start of the calendar. *)
Definition stamp (dt : moment) : Z :=
  ymd2ord (yr dt) (mo dt) (dy dt) * DAY_US + match us dt with Some u => u | None => 0 end.
(** dt2 - dt1: defined between two dates and between two datetimes. timedelta.total_seconds(): the microseconds divided by 10**6. *)
Definition total_seconds (dt1 dt2 : moment) : res val :=
  match us dt1, us dt2 with
  | None, None | Some _, Some _ => py_div (VInt (stamp dt2 - stamp dt1)) (VInt 1000000)
  | _, _ => Err TypeError
  end.
(** datetime_funcs.py:293-301 mysql_datediff, 304-311 mysql_timestampdiff. *)
Definition mysql_datediff (dt1 dt2 : moment) : res val :=
  do s <- total_seconds dt1 dt2; do q <- py_div s (VInt 86400); py_int q.
Definition mysql_timestampdiff (unit : text) (dt1 dt2 : moment) : res val :=
  do s <- total_seconds dt1 dt2;
  match assoc unit TIMEDELTA_UNITS with
  | Some n => do q <- py_div s (VInt n); py_int q
  | None => Err KeyError
  end.

(** date.weekday(). datetime_funcs.py:169-175 mysql_dayofweek, 329-335 mysql_weekday. *)
Definition mysql_weekday (dt : moment) : Z := (ymd2ord (yr dt) (mo dt) (dy dt) + 6) mod 7.
Definition mysql_dayofweek (dt : moment) : Z := mysql_weekday dt + 1.
(** datetime_funcs.py:193-199 mysql_dayofyear: strftime("%j"). *)
Definition mysql_dayofyear (dt : moment) : Z := days_before_month (yr dt) (mo dt) + dy dt.

(** datetime_funcs.py:226-231 mysql_sec_to_time for an integer t: the hours, minutes and seconds printed by %H:%M:%S. *)
Definition mysql_sec_to_time (s : Z) : res (Z * Z * Z) :=
  do x <- add_td (mkmoment 2000 1 1 (Some 0)) (s * 1000000);
  match us x with
  | Some u => let s := u / 1000000 in Ok (s / 3600, s / 60 mod 60, s mod 60)
  | None => Err OtherError
  end.
(** datetime_funcs.py:217-223 mysql_time_to_sec for a text time h:m:s, parsed as 2000-01-01 h:m:s. *)
Definition mysql_time_to_sec (h m s : Z) : res val :=
  do x <- total_seconds (mkmoment 2000 1 1 (Some 0)) (mkmoment 2000 1 1 (Some ((h * 3600 + m * 60 + s) * 1000000)));
  py_int x.

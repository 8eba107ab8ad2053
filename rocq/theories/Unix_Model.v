(** UNIX_TIMESTAMP, FROM_UNIXTIME and the DATE, DATETIME and TIME conversions
    (syncanysql/calculaters/mysql_funcs/datetime_funcs.py 92-143). *)
From Verif Require Import Base PyVal Agg_Model Date_Model.
Open Scope Z_scope.

(** A Python value given to these functions. A datetime is its wall clock (a [moment] with [us]) and its utcoffset() in seconds
    (None: naive); a time is its microseconds since midnight; anything else is a plain value. *)
Inductive pyv :=
| PNull
| PDatetime (wall : moment) (off : option Z)
| PDate (d : moment)
| PTime (u : Z)
| POther (v : val).

(** datetime.datetime(1970, 1, 1, tzinfo=UTC). *)
Definition EPOCH : moment := mkmoment 1970 1 1 (Some 0).

(** datetime.utctimetuple(): an aware datetime is moved back by its offset, a naive one is left as it is. *)
Definition utctimetuple (wall : moment) (off : option Z) : res moment :=
  match off with None => Ok wall | Some o => sub_td wall (o * 1000000) end.
(** time.mktime(tm) with tm_isdst = 0, which utctimetuple() sets: the fields are read as standard time of the machine's own zone,
    [loc] seconds ahead of UTC (simplified: that offset never changed in the zone's history). Fractions of a second are not part
    of a struct_time. *)
Definition mktime (loc : Z) (tm : moment) : Z :=
  (ymd2ord (yr tm) (mo tm) (dy tm) - ymd2ord 1970 1 1) * 86400 + match us tm with Some u => u / 1000000 | None => 0 end - loc.

(** datetime_funcs.py 133-137, mysql_unix_timestamp; [now] is time.time() rounded down. A date, a time, a number or a text has no
    utctimetuple: AttributeError, which MysqlCalculater turns into NULL (mysql_calculater.py 38-95), as any other exception. *)
Definition unix_timestamp (now loc : Z) (x : pyv) : option Z :=
  match x with
  | PNull => Some now
  | PDatetime w o => match utctimetuple w o with Ok tm => Some (mktime loc tm) | Err _ => None end
  | _ => None
  end.

(** datetime_funcs.py 139-143, mysql_from_unixtime. [zone] is the session's zone: its offset in seconds at a UTC second.
    datetime.fromtimestamp(n, UTC) is the epoch plus n seconds, an exception out of years 1 to 9999; astimezone adds the offset. *)
Definition from_unixtime (zone : Z -> Z) (x : pyv) : pyv :=
  match x with
  | POther v =>
      match (do n <- py_int v;
             match n with
             | VInt n =>
                 do utc <- add_td EPOCH (n * 1000000);
                 do w <- add_td utc (zone n * 1000000);
                 Ok (PDatetime w (Some (zone n)))
             | _ => Err TypeError
             end) with Ok y => y | Err _ => PNull end
  | _ => PNull
  end.

(** The hour, minute, second and microsecond of a wall clock as microseconds since midnight; a date has none of them. *)
Definition clock (w : moment) : Z := match us w with Some u => u | None => 0 end.
(** syncany.utils.parse_datetime, for texts and numbers: not part of this repository, so any function. *)
Definition parsed (parse : val -> res pyv) (x : pyv) : res pyv := match x with POther v => parse v | _ => Ok x end.
Definition guard (r : res pyv) : pyv := match r with Ok y => y | Err _ => PNull end.

(** datetime_funcs.py 91-101, mysql_date. *)
Definition mysql_date (parse : val -> res pyv) (x : pyv) : pyv :=
  guard (do y <- parsed parse x;
         Ok match y with
            | PDatetime w _ => PDate (mkmoment (yr w) (mo w) (dy w) None)
            | PDate d => PDate d
            | _ => PNull
            end).
(** datetime_funcs.py 103-117, mysql_datetime; [offset] is what the zone object given as tzinfo reports; [today] the current date
    in that zone. *)
Definition mysql_datetime (parse : val -> res pyv) (offset : option Z) (today : moment) (x : pyv) : pyv :=
  guard (do y <- parsed parse x;
         Ok match y with
            | PDatetime w o => PDatetime w o
            | PDate d => PDatetime (mkmoment (yr d) (mo d) (dy d) (Some 0)) offset
            | PTime u => PDatetime (mkmoment (yr today) (mo today) (dy today) (Some u)) offset
            | _ => PNull
            end).
(** datetime_funcs.py 119-131, mysql_time. *)
Definition mysql_time (parse : val -> res pyv) (x : pyv) : pyv :=
  guard (do y <- parsed parse x;
         Ok match y with
            | PTime u => PTime u
            | PDatetime w _ => PTime (clock w)
            | PDate _ => PTime 0
            | _ => PNull
            end).

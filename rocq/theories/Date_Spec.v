(** The proleptic Gregorian calendar and SQL's date arithmetic, independently of the model. *)
From Coq Require Import ZArith List.
Import ListNotations.
Open Scope Z_scope.

Definition leap_year (y : Z) : bool :=
  if y mod 400 =? 0 then true else if y mod 100 =? 0 then false else y mod 4 =? 0.
Definition month_length (y m : Z) : Z :=
  match m with 2 => if leap_year y then 29 else 28 | 4 | 6 | 9 | 11 => 30 | _ => 31 end.

Definition day := (Z * Z * Z)%type.   (* year, month, day of the month *)
Definition is_day (d : day) : Prop := let '(y, m, d) := d in 1 <= y /\ 1 <= m <= 12 /\ 1 <= d <= month_length y m.
Definition next_day (d : day) : day :=
  let '(y, m, d) := d in
  if d <? month_length y m then (y, m, d + 1) else if m <? 12 then (y, m + 1, 1) else (y + 1, 1, 1).
(** [b] is [n] days after [a]. *)
Definition days_after (n : nat) (a b : day) : Prop := Nat.iter n next_day a = b.

(** The same day of the month k months later, or the last day of that month when it is shorter. *)
Definition months_later (k : Z) (d : day) : day :=
  let '(y, m, d) := d in
  let n := 12 * y + (m - 1) + k in
  let y' := n / 12 in let m' := n mod 12 + 1 in
  (y', m', Z.min d (month_length y' m')).

(** [x] microseconds pass from time [u] (microseconds since midnight) of day [a] to time [v] of day [b]. *)
Definition day_us : Z := 24 * 60 * 60 * 1000000.
Definition elapsed (a : day) (u : Z) (b : day) (v : Z) (x : Z) : Prop :=
  exists n, (days_after n a b /\ x = Z.of_nat n * day_us + v - u) \/ (days_after n b a /\ x = - Z.of_nat n * day_us + v - u).

(** Seconds per unit. *)
Inductive unit := Week | Day | Hour | Minute | Second.
Definition unit_seconds (u : unit) : Z :=
  match u with Week => 604800 | Day => 86400 | Hour => 3600 | Minute => 60 | Second => 1 end.

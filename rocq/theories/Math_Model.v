(** Model of the mathematical functions: syncanysql/calculaters/mysql_funcs/number_funcs.py:131-168 (sqrt, exp, ln, log),
    202-208 (round), 221-290 (pow, power, sin, asin, cos, acos, tan, atan). *)
From Coq Require Import SpecFloat.
From Verif Require Import Base PyVal Utils_Model Calc_Model.
Open Scope Z_scope.

(** math.sqrt: the correctly rounded root of a float; ValueError below zero (not for -0.0); other types TypeError. *)
Definition py_sqrt (x : val) : res val :=
  do f <- as_float x;
  match f with
  | S754_finite true _ _ | S754_infinity true => Err ValueError
  | _ => Ok (VFloat (SFsqrt prec emax f))
  end.
(** number_funcs.py:131-137. *)
Definition mysql_sqrt := unary py_sqrt.

(** number_funcs.py:140-146 exp, 153-159 ln, 239-290 sin, asin, cos, acos, tan, atan: [m] is the function of Python's math module
    on numbers (external: what it computes, and its ValueError and OverflowError); it raises TypeError on other types. *)
Definition mysql_math (m : val -> res val) := unary (fun x => if is_number x then m x else Err TypeError).
(** number_funcs.py:221-227 pow, 230-236 power. *)
Definition mysql_math2 (m : val -> val -> res val) (x y : val) : res val :=
  let f x y := if is_number x && is_number y then m x y else Err TypeError in
  if is_none x || is_none y then Ok VNone
  else try_ (f x y) (do a <- ensure_number x; do b <- ensure_number y; f a b).
(** number_funcs.py:162-168 log: the base is not coerced. *)
Definition mysql_log (m : val -> val -> res val) (x base : val) : res val :=
  let f x y := if is_number x && is_number y then m x y else Err TypeError in
  if is_none x then Ok VNone
  else try_ (f x base) (do a <- ensure_number x; f a base).

(** a / d rounded to an integer, halves to the even one (d > 0). *)
Definition half_even (a d : Z) : Z :=
  let q := a / d in
  match Z.compare (2 * (a mod d)) d with Lt => q | Gt => q + 1 | Eq => if Z.even q then q else q + 1 end.
(** round(int, n): CPython long_round. *)
Definition round_int (z n : Z) : Z := if 0 <=? n then z else half_even z (10 ^ (- n)) * 10 ^ (- n).
(** round(float, n): CPython float___round___impl: the decimal with n digits after the point nearest to the exact value of
    the float, halves to even (dtoa mode 3), read back as a float; OverflowError when that is out of range.  Beyond 323 digits
    the number itself, below -308 digits a zero of its sign. *)
Definition round_float (f : spec_float) (n : Z) : res spec_float :=
  match f with
  | S754_finite s m e =>
    if n >? 323 then Ok f
    else if n <? -308 then Ok (S754_zero s)
    else
      let num := Zpos m * 2 ^ Z.max e 0 * 10 ^ Z.max n 0 in
      let den := 2 ^ Z.max (- e) 0 * 10 ^ Z.max (- n) 0 in
      let r := decimal_float s (half_even num den) (- n) in
      if is_inf r then Err OverflowError else Ok r
  | _ => Ok f
  end.
(** round(x, n); n through __index__ (int and bool only). *)
Definition py_round (x y : val) : res val :=
  match x with
  | VFloat f => match as_int y with Some n => do r <- round_float f n; Ok (VFloat r) | None => Err TypeError end
  | _ => match as_int x, as_int y with Some z, Some n => Ok (VInt (round_int z n)) | _, _ => Err TypeError end
  end.
(** number_funcs.py:202-208 (the default y=2 is never used: mysql_calculater.py calls it through calculate2, which passes None). *)
Definition mysql_round (x y : val) : res val :=
  if is_none x || is_none y then Ok VNone
  else try_ (py_round x y) (do a <- ensure_number x; do b <- ensure_int y; py_round a b).
(** ROUND with one argument: mysql_calculater.py:76-84. *)
Definition sql_round1 (x : val) : val :=
  match call_func (dispatch 2 2) (fun2 mysql_round) [x] with Ok v => v | Err _ => VNone end.
(** LOG with one argument. *)
Definition sql_log1 (m : val -> val -> res val) (x : val) : val :=
  match call_func (dispatch 2 2) (fun2 (mysql_log m)) [x] with Ok v => v | Err _ => VNone end.

(** Python values that flow through SQL expressions, and the Python operators on them.
    Modelled: None, bool, int (unbounded), float (binary64, Coq's SpecFloat), str, date, datetime
    (naive), time.  Not modelled: Decimal, bytes, list/dict (JSON has its own model), timedelta.
    [str(float)] is the external argument [frepr] wherever it is needed. *)
From Coq Require Import SpecFloat.
From Verif Require Import Base.
Open Scope Z_scope.

Inductive val :=
| VNone
| VBool (b : bool)
| VInt (z : Z)
| VFloat (f : spec_float)
| VStr (s : text)
| VDate (y m d : Z)
| VDatetime (y m d h mi s us : Z)
| VTime (h mi s us : Z).

(** ** Numbers: the exact value of an int, bool or float. *)
Inductive num := Fin (m e : Z) | PInf | NInf | Nan.   (* Fin m e = m * 2^e *)

Definition num_of_float (f : spec_float) : num :=
  match f with
  | S754_zero _ => Fin 0 0
  | S754_infinity s => if s then NInf else PInf
  | S754_nan => Nan
  | S754_finite s m e => Fin (if s then Z.neg m else Z.pos m) e
  end.

Definition b2z (b : bool) : Z := if b then 1 else 0.

Definition num_of (v : val) : option num :=
  match v with
  | VBool b => Some (Fin (b2z b) 0)
  | VInt z => Some (Fin z 0)
  | VFloat f => Some (num_of_float f)
  | _ => None
  end.

(** Exact comparison (CPython float_richcompare and long comparison); None: unordered (nan). *)
Definition ncmp (a b : num) : option comparison :=
  match a, b with
  | Nan, _ | _, Nan => None
  | Fin m e, Fin m' e' => let k := Z.min e e' in
                          Some (Z.compare (m * 2 ^ (e - k)) (m' * 2 ^ (e' - k)))
  | PInf, PInf | NInf, NInf => Some Eq
  | PInf, _ | _, NInf => Some Gt
  | _, PInf | NInf, _ => Some Lt
  end.

(** Text ordered lexicographically by code point (CPython unicode_compare). *)
Fixpoint tcmp (a b : text) : comparison :=
  match a, b with
  | [], [] => Eq
  | [], _ => Lt
  | _, [] => Gt
  | x :: a', y :: b' => match N.compare x y with Eq => tcmp a' b' | c => c end
  end.

Fixpoint zcmp (a b : list Z) : comparison :=
  match a, b with
  | [], [] => Eq
  | [], _ => Lt
  | _, [] => Gt
  | x :: a', y :: b' => match Z.compare x y with Eq => zcmp a' b' | c => c end
  end.

(** Python ordering of two values: Err TypeError when the types do not compare;
    [Ok None] for nan operands. *)
Definition pycmp (a b : val) : res (option comparison) :=
  match num_of a, num_of b with
  | Some x, Some y => Ok (ncmp x y)
  | _, _ =>
    match a, b with
    | VStr x, VStr y => Ok (Some (tcmp x y))
    | VDate y m d, VDate y' m' d' => Ok (Some (zcmp [y; m; d] [y'; m'; d']))
    | VDatetime y m d h mi s u, VDatetime y' m' d' h' mi' s' u' =>
        Ok (Some (zcmp [y; m; d; h; mi; s; u] [y'; m'; d'; h'; mi'; s'; u']))
    | VTime h mi s u, VTime h' mi' s' u' => Ok (Some (zcmp [h; mi; s; u] [h'; mi'; s'; u']))
    | _, _ => Err TypeError
    end
  end.

(** Python [a == b]: never raises; values of unrelated types are different. *)
Definition pyeq (a b : val) : bool :=
  match a, b with
  | VNone, VNone => true
  | _, _ => match pycmp a b with Ok (Some Eq) => true | _ => false end
  end.

(** [a < b], [a <= b], [a > b], [a >= b]. *)
Definition pylt (a b : val) : res bool :=
  do c <- pycmp a b; Ok (match c with Some Lt => true | _ => false end).
Definition pyle (a b : val) : res bool :=
  do c <- pycmp a b; Ok (match c with Some Lt | Some Eq => true | _ => false end).
Definition pygt (a b : val) : res bool :=
  do c <- pycmp a b; Ok (match c with Some Gt => true | _ => false end).
Definition pyge (a b : val) : res bool :=
  do c <- pycmp a b; Ok (match c with Some Gt | Some Eq => true | _ => false end).

(** Python truth value. *)
Definition truthy (v : val) : bool :=
  match v with
  | VNone => false
  | VBool b => b
  | VInt z => negb (z =? 0)
  | VFloat (S754_zero _) => false
  | VFloat _ => true
  | VStr [] => false
  | VStr _ => true
  | _ => true
  end.

Definition same_class (a b : val) : bool :=
  match a, b with
  | VNone, VNone | VBool _, VBool _ | VInt _, VInt _ | VFloat _, VFloat _ | VStr _, VStr _ => true
  | VDate _ _ _, VDate _ _ _ | VDatetime _ _ _ _ _ _ _, VDatetime _ _ _ _ _ _ _
  | VTime _ _ _ _, VTime _ _ _ _ => true
  | _, _ => false
  end.

(** isinstance(x, (int, float, Decimal)); bool is a subclass of int. *)
Definition is_number (v : val) : bool :=
  match v with VBool _ | VInt _ | VFloat _ => true | _ => false end.
Definition is_str (v : val) : bool := match v with VStr _ => true | _ => false end.

(** ** Binary64 arithmetic *)
Definition prec := 53. Definition emax := 1024.
Definition fadd := SFadd prec emax. Definition fsub := SFsub prec emax.
Definition fmul := SFmul prec emax. Definition fdiv := SFdiv prec emax.

Definition is_inf (f : spec_float) : bool := match f with S754_infinity _ => true | _ => false end.

(** float(int): correctly rounded; OverflowError when out of range. *)
Definition float_of_Z (z : Z) : res spec_float :=
  let f := binary_normalize prec emax z 0 false in
  if is_inf f then Err OverflowError else Ok f.

(** m / d correctly rounded (m any integer, d > 0). *)
Definition ratio_float (m : Z) (d : positive) : spec_float :=
  match m with
  | Z0 => S754_zero false
  | Zpos p => fdiv (S754_finite false p 0) (S754_finite false d 0)
  | Zneg p => fdiv (S754_finite true p 0) (S754_finite false d 0)
  end.

(** int(float): truncation toward zero. *)
Definition Z_of_float (f : spec_float) : res Z :=
  match f with
  | S754_zero _ => Ok 0
  | S754_infinity _ => Err OverflowError
  | S754_nan => Err ValueError
  | S754_finite s m e =>
    let a := if e >=? 0 then Z.pos m * 2 ^ e else Z.pos m / 2 ^ (- e) in
    Ok (if s then - a else a)
  end.

(** math.floor / math.ceil of a float. *)
Definition floor_float (f : spec_float) : res Z :=
  match f with
  | S754_zero _ => Ok 0
  | S754_infinity _ => Err OverflowError
  | S754_nan => Err ValueError
  | S754_finite s m e =>
    let a := if s then Z.neg m else Z.pos m in
    Ok (if e >=? 0 then a * 2 ^ e else a / 2 ^ (- e))
  end.
Definition ceil_float (f : spec_float) : res Z :=
  do z <- floor_float (SFopp f); Ok (- z).

(** ** Text of integers *)
Definition digit_char (d : Z) : N := Z.to_N (48 + d).
Fixpoint digits_fuel (fuel : nat) (z : Z) (acc : text) : text :=
  match fuel with
  | 0%nat => acc
  | S f => if z <? 10 then digit_char z :: acc
           else digits_fuel f (z / 10) (digit_char (z mod 10) :: acc)
  end.
(** str(int); the number of binary digits bounds the number of decimal digits. *)
Definition str_of_nonneg (z : Z) : text := digits_fuel (S (Z.to_nat (Z.log2 z))) z [].
Definition str_of_Z (z : Z) : text :=
  if z <? 0 then 45%N :: str_of_nonneg (- z) else str_of_nonneg z.

Definition is_digit_ascii (c : N) : bool := ((48 <=? c) && (c <=? 57))%N.
Definition digit_val (c : N) : Z := Z.of_N c - 48.

(** ASCII white space of str.strip(). *)
Definition is_space_ascii (c : N) : bool :=
  ((c =? 32) || (9 <=? c) && (c <=? 13) || (28 <=? c) && (c <=? 31))%N.

(** Digits with optional single underscores between them; value accumulated in [acc].
    [prev]: the previous character was a digit. *)
Fixpoint digits_us (s : text) (prev : bool) (acc : Z) : option Z :=
  match s with
  | [] => if prev then Some acc else None
  | c :: r =>
    if is_digit_ascii c then digits_us r true (acc * 10 + digit_val c)
    else if (c =? 95)%N && prev then digits_us r false acc
    else None
  end.

(** Python int(str), base 10.  Simplification: only ASCII digits and white space are recognised, and
    CPython's optional limit on the number of digits is ignored. *)
Definition int_of_text (s : text) : res Z :=
  let s := strip is_space_ascii s in
  let r := match s with
           | 45%N :: r => option_map Z.opp (digits_us r false 0)
           | 43%N :: r => digits_us r false 0
           | _ => digits_us s false 0
           end in
  match r with Some z => Ok z | None => Err ValueError end.

(** Split at the first character satisfying [p]. *)
Fixpoint break (p : N -> bool) (s : text) : text * option text :=
  match s with
  | [] => ([], None)
  | c :: r => if p c then ([], Some r) else let (a, b) := break p r in (c :: a, b)
  end.

Definition lower_ascii (c : N) : N := if ((65 <=? c) && (c <=? 90))%N then (c + 32)%N else c.

(** Mantissa digits [int][.[frac]], at least one digit: integer value and number of fraction digits. *)
Definition mantissa_of (s : text) : option (Z * nat) :=
  let count l := length (filter is_digit_ascii l) in
  let (a, b) := break (N.eqb 46) s in
  match b with
  | None => option_map (fun z => (z, 0%nat)) (digits_us a false 0)
  | Some b =>
    match a, b with
    | [], [] => None
    | [], _ => option_map (fun z => (z, count b)) (digits_us b false 0)
    | _, [] => option_map (fun z => (z, 0%nat)) (digits_us a false 0)
    | _, _ => match digits_us a false 0 with
              | Some z => option_map (fun w => (w, count b)) (digits_us b false z)
              | None => None
              end
    end
  end.

Definition pow10 (n : Z) : positive := Z.to_pos (10 ^ n).
Definition decimal_float (neg : bool) (m : Z) (e10 : Z) : spec_float :=
  let f := if e10 >=? 0 then binary_normalize prec emax (m * 10 ^ e10) 0 false
           else ratio_float m (pow10 (- e10)) in
  if neg then SFopp f else f.

Definition unsigned_float (neg : bool) (s : text) : option spec_float :=
  let low := map lower_ascii s in
  if text_eqb low (t "inf") || text_eqb low (t "infinity") then Some (S754_infinity neg)
  else if text_eqb low (t "nan") then Some S754_nan
  else
    let (a, b) := break (fun c => (c =? 101)%N || (c =? 69)%N) s in
    match mantissa_of a with
    | None => None
    | Some (m, k) =>
      match b with
      | None => Some (decimal_float neg m (- Z.of_nat k))
      | Some e =>
        let ex := match e with
                  | 45%N :: r => option_map Z.opp (digits_us r false 0)
                  | 43%N :: r => digits_us r false 0
                  | _ => digits_us e false 0
                  end in
        option_map (fun x => decimal_float neg m (x - Z.of_nat k)) ex
      end
    end.

(** Python float(str), correctly rounded; ASCII forms only. *)
Definition float_of_text (s : text) : res spec_float :=
  let s := strip is_space_ascii s in
  let r := match s with
           | 45%N :: r => unsigned_float true r
           | 43%N :: r => unsigned_float false r
           | _ => unsigned_float false s
           end in
  match r with Some f => Ok f | None => Err ValueError end.

(** ** Arithmetic operators on int/bool/float.  Other operand types: TypeError
    (str + str etc. never reach them: the callers coerce with ensure_number first). *)
Definition as_float (v : val) : res spec_float :=
  match v with
  | VBool b => float_of_Z (b2z b)
  | VInt z => float_of_Z z
  | VFloat f => Ok f
  | _ => Err TypeError
  end.
Definition as_int (v : val) : option Z :=
  match v with VBool b => Some (b2z b) | VInt z => Some z | _ => None end.

Definition arith (zop : Z -> Z -> Z) (fop : spec_float -> spec_float -> spec_float) (a b : val) : res val :=
  match as_int a, as_int b with
  | Some x, Some y => Ok (VInt (zop x y))
  | _, _ => do x <- as_float a; do y <- as_float b; Ok (VFloat (fop x y))
  end.
Definition py_add := arith Z.add fadd.
Definition py_sub := arith Z.sub fsub.
Definition py_mul := arith Z.mul fmul.

Definition is_zero_float (f : spec_float) : bool := match f with S754_zero _ => true | _ => false end.

(** [a / b]. *)
Definition py_div (a b : val) : res val :=
  match as_int a, as_int b with
  | Some x, Some y =>
    match y with
    | Z0 => Err ZeroDivisionError
    | Zpos p => let f := ratio_float x p in if is_inf f then Err OverflowError else Ok (VFloat f)
    | Zneg p => let f := ratio_float (- x) p in if is_inf f then Err OverflowError else Ok (VFloat f)
    end
  | _, _ =>
    do x <- as_float a; do y <- as_float b;
    if is_zero_float y then Err ZeroDivisionError else Ok (VFloat (fdiv x y))
  end.

(** C fmod, exact. *)
Definition fmod (x y : spec_float) : spec_float :=
  match x, y with
  | S754_nan, _ | _, S754_nan | S754_infinity _, _ | _, S754_zero _ => S754_nan
  | _, S754_infinity _ => x
  | S754_zero _, _ => x
  | S754_finite s m e, S754_finite _ m' e' =>
    let k := Z.min e e' in
    let r := (Z.pos m * 2 ^ (e - k)) mod (Z.pos m' * 2 ^ (e' - k)) in
    binary_normalize prec emax (if s then - r else r) k s
  end.
Definition fneg (f : spec_float) : bool :=
  match f with S754_finite s _ _ | S754_zero s | S754_infinity s => s | S754_nan => false end.
(** CPython float_rem. *)
Definition py_fmod (x y : spec_float) : spec_float :=
  let m := fmod x y in
  if is_zero_float m then S754_zero (fneg y)
  else match m with
       | S754_nan => m
       | _ => if Bool.eqb (fneg y) (fneg m) then m else fadd m y
       end.

(** [a % b]. *)
Definition py_mod (a b : val) : res val :=
  match as_int a, as_int b with
  | Some x, Some y => if y =? 0 then Err ZeroDivisionError else Ok (VInt (x mod y))
  | _, _ =>
    do x <- as_float a; do y <- as_float b;
    if is_zero_float y then Err ZeroDivisionError else Ok (VFloat (py_fmod x y))
  end.

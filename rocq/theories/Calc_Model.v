(** Model of the scalar SQL functions: dispatch (mysql_calculater.py), comparison
    (mysql_funcs/logical_funcs.py) and arithmetic (mysql_funcs/number_funcs.py).
    The decorator [typing_filter] of the external package syncany only attaches result-type
    metadata and is not modelled. *)
From Coq Require Import SpecFloat.
From Verif Require Import Base PyVal Utils_Model.
Open Scope Z_scope.

(** ** Dispatch: mysql_calculater.py *)

(** mysql_calculater.py:44-52 calculate: [try: return self.func( *args ) except Exception: return None]. *)
Definition guarded (r : res val) : val := match r with Ok v => v | Err _ => VNone end.

(** mysql_calculater.py:22-42: a plain function whose parameters are all its local variables and that
    has n <= 4 of them is called through calculate0..calculate4 ([Some n]), whose own signature has n
    parameters defaulting to None; every other function through [calculate( *args )] ([None]).
    A call with more than n arguments fails before the try block is entered (lines 54-102). *)
Definition call_func (nargs : option nat) (f : list val -> res val) (args : list val) : res val :=
  match nargs with
  | Some n => if (n <? length args)%nat then Err TypeError
              else Ok (guarded (f (args ++ repeat VNone (n - length args))))
  | None => Ok (guarded (f args))
  end.
(** mysql_calculater.py:26-39: which of the two. *)
Definition dispatch (argcount varnames : nat) : option nat :=
  if (argcount =? varnames)%nat && (argcount <=? 4)%nat then Some argcount else None.

(** A Python function of exactly one / two parameters applied to an argument tuple. *)
Definition fun1 (f : val -> res val) (args : list val) : res val :=
  match args with [a] => f a | _ => Err TypeError end.
Definition fun2 (f : val -> val -> res val) (args : list val) : res val :=
  match args with [a; b] => f a b | _ => Err TypeError end.

(** ** Comparison: logical_funcs.py.  Section variable [frepr] is str(float). *)
Section Logical.
Variable frepr : spec_float -> text.

Definition b2v (b : bool) : val := VInt (if b then 1 else 0).
Definition is_none (v : val) : bool := match v with VNone => true | _ => false end.

(** logical_funcs.py:9-34 mysql_eq ([ne] = false) and 37-62 mysql_neq ([ne] = true): the two bodies
    differ only in == / !=.  Lines 27-33 (isinstance bool) are unreachable: bool is an int, already
    handled at line 16. *)
Definition mysql_equ (ne : bool) (a b : val) : res val :=
  let out r := b2v (xorb ne r) in
  if same_class a b then
    if is_none a then Ok VNone else Ok (out (pyeq a b))
  else if is_none a || is_none b then Ok VNone
  else if is_number a then
    if is_number b then Ok (out (pyeq a b))
    else try_ (do x <- ensure_number a; do y <- ensure_number b; Ok (out (pyeq x y)))
              (Ok (out (pyeq a b)))
  else if is_str a then
    if is_str b then Ok (out (pyeq a b))
    else do x <- ensure_str frepr a; do y <- ensure_str frepr b; Ok (out (pyeq x y))
  else Ok (out (pyeq a b)).
Definition mysql_eq := mysql_equ false.
Definition mysql_neq := mysql_equ true.

(** logical_funcs.py:65-93 mysql_gt, 96-124 mysql_gte, 127-155 mysql_lt, 158-186 mysql_lte: the four
    bodies differ only in the operator [op]. *)
Definition mysql_ord (op : val -> val -> res bool) (a b : val) : res val :=
  let out r := do x <- r; Ok (b2v x) in
  let rest :=
    if is_none a || is_none b then Ok VNone
    else if is_number a then
      if is_number b then out (op a b)
      else try_ (do x <- ensure_number a; do y <- ensure_number b; out (op x y)) (out (op a b))
    else if is_str a then
      if is_str b then out (op a b)
      else do x <- ensure_str frepr a; do y <- ensure_str frepr b; out (op x y)
    else out (op a b) in
  if same_class a b then
    if is_none a then Ok VNone else try_ (out (op a b)) rest
  else rest.
Definition mysql_gt := mysql_ord pygt.
Definition mysql_gte := mysql_ord pyge.
Definition mysql_lt := mysql_ord pylt.
Definition mysql_lte := mysql_ord pyle.

(** logical_funcs.py:189-199 mysql_in; [b] is the list the query supplies. *)
Fixpoint in_loop (a : val) (b : list val) (hs_none : bool) : res val :=
  match b with
  | [] => Ok (if hs_none then VNone else VInt 0)
  | v :: r =>
    if is_none v then in_loop a r true
    else do e <- mysql_eq a v; if truthy e then Ok (VInt 1) else in_loop a r hs_none
  end.
Definition mysql_in (a : val) (b : list val) : res val :=
  if is_none a then Ok VNone else in_loop a b false.

(** logical_funcs.py:202-205. *)
Definition mysql_not (a : val) : res val :=
  if is_none a then Ok VNone else Ok (b2v (negb (truthy a))).

(** logical_funcs.py:208-213 mysql_is, 216-221 mysql_is_not.  [a is b] (object identity) of two values
    of one class is modelled as [ident]: an external argument, except that None is None. *)
Definition mysql_is (ident : val -> val -> bool) (a b : val) : res val :=
  if same_class a b then Ok (b2v (is_none a || ident a b))
  else if is_none a || is_none b then Ok (VInt 0)
  else mysql_eq a b.
Definition mysql_is_not (ident : val -> val -> bool) (a b : val) : res val :=
  if same_class a b then Ok (b2v (negb (is_none a || ident a b)))
  else if is_none a || is_none b then Ok (VInt 1)
  else mysql_neq a b.
End Logical.

(** The SQL operators as the query evaluates them: through call_func. *)
Definition sql2 (f : val -> val -> res val) (a b : val) : val :=
  match call_func (dispatch 2 2) (fun2 f) [a; b] with Ok v => v | Err _ => VNone end.
Definition sql1 (f : val -> res val) (a : val) : val :=
  match call_func (dispatch 1 1) (fun1 f) [a] with Ok v => v | Err _ => VNone end.

(** ** Arithmetic: number_funcs.py *)

(** number_funcs.py:11-38: mysql_add, mysql_sub, mysql_mul, mysql_div, mysql_mod. *)
Definition arith2 (op : val -> val -> res val) (x y : val) : res val :=
  if is_none x || is_none y then Ok VNone
  else do a <- ensure_number x; do b <- ensure_number y; op a b.
Definition mysql_add := arith2 py_add.
Definition mysql_sub := arith2 py_sub.
Definition mysql_mul := arith2 py_mul.
Definition mysql_div := arith2 py_div.
Definition mysql_mod := arith2 py_mod.

(** Python &, |, ^ on int/bool (bool op bool is a bool), <<, >> on int/bool; other types TypeError,
    negative shift counts ValueError. *)
Definition py_bit (zop : Z -> Z -> Z) (bop : bool -> bool -> bool) (x y : val) : res val :=
  match x, y with
  | VBool a, VBool b => Ok (VBool (bop a b))
  | _, _ => match as_int x, as_int y with
            | Some a, Some b => Ok (VInt (zop a b))
            | _, _ => Err TypeError
            end
  end.
Definition py_shift (zop : Z -> Z -> Z) (x y : val) : res val :=
  match as_int x, as_int y with
  | Some a, Some b => if b <? 0 then Err ValueError else Ok (VInt (zop a b))
  | _, _ => Err TypeError
  end.
Definition py_and := py_bit Z.land andb.
Definition py_or := py_bit Z.lor orb.
Definition py_xor := py_bit Z.lxor xorb.
Definition py_rshift := py_shift Z.shiftr.
Definition py_lshift := py_shift Z.shiftl.
Definition py_invert (x : val) : res val :=
  match as_int x with Some a => Ok (VInt (Z.lnot a)) | None => Err TypeError end.

(** number_funcs.py:41-56, 68-119: mysql_bitwiseand/or/xor, shifts, bit_and/or/xor. *)
Definition bit2 (op : val -> val -> res val) (x y : val) : res val :=
  if is_none x || is_none y then Ok VNone
  else try_ (op x y) (do a <- ensure_int x; do b <- ensure_int y; op a b).
Definition mysql_bitwiseand := bit2 py_and.
Definition mysql_bitwiseor := bit2 py_or.
Definition mysql_bitwisexor := bit2 py_xor.
Definition mysql_bitwiserightshift := bit2 py_rshift.
Definition mysql_bitwiseleftshift := bit2 py_lshift.
(** number_funcs.py:59-65. *)
Definition mysql_bitwisenot (x : val) : res val :=
  if is_none x then Ok VNone else try_ (py_invert x) (do a <- ensure_int x; py_invert a).

(** abs, math.ceil, math.floor of a number. *)
Definition py_abs (x : val) : res val :=
  match x with
  | VFloat f => Ok (VFloat (SFabs f))
  | _ => match as_int x with Some a => Ok (VInt (Z.abs a)) | None => Err TypeError end
  end.
Definition py_ceil (x : val) : res val :=
  match x with
  | VFloat f => do z <- ceil_float f; Ok (VInt z)
  | _ => match as_int x with Some a => Ok (VInt a) | None => Err TypeError end
  end.
Definition py_floor (x : val) : res val :=
  match x with
  | VFloat f => do z <- floor_float f; Ok (VInt z)
  | _ => match as_int x with Some a => Ok (VInt a) | None => Err TypeError end
  end.
Definition unary (op : val -> res val) (x : val) : res val :=
  if is_none x then Ok VNone else try_ (op x) (do a <- ensure_number x; op a).
(** number_funcs.py:122-128, 171-177 (= 180-186 ceiling), 189-195. *)
Definition mysql_abs := unary py_abs.
Definition mysql_ceil := unary py_ceil.
Definition mysql_floor := unary py_floor.

(** number_funcs.py:211-218 mysql_sign. *)
Definition sign_of (x : val) : res val :=
  if pyeq x (VInt 0) then Ok (VInt 0) else do b <- pylt x (VInt 0); Ok (VInt (if b then -1 else 1)).
Definition mysql_sign (x : val) : res val :=
  if is_none x then Ok VNone else try_ (sign_of x) (do a <- ensure_number x; sign_of a).

(** Python max( *args ) / min( *args ) with at least two arguments: keep the first, replace it by every
    later argument that is greater (less).  With one argument it is an iterable: a str gives its
    greatest character, other modelled values TypeError; without arguments TypeError. *)
Fixpoint best (op : val -> val -> res bool) (cur : val) (l : list val) : res val :=
  match l with
  | [] => Ok cur
  | v :: r => do b <- op v cur; best op (if b then v else cur) r
  end.
Definition py_best (op : val -> val -> res bool) (args : list val) : res val :=
  match args with
  | [] => Err TypeError
  | [VStr []] => Err ValueError
  | [VStr (c :: s)] => best op (VStr [c]) (map (fun x => VStr [x]) s)
  | [_] => Err TypeError
  | v :: r => best op v r
  end.
Fixpoint map_res {A B} (f : A -> res B) (l : list A) : res (list B) :=
  match l with
  | [] => Ok []
  | a :: r => do b <- f a; do bs <- map_res f r; Ok (b :: bs)
  end.
(** number_funcs.py:293-304 mysql_greatest, mysql_least. *)
Definition extremum (op : val -> val -> res bool) (args : list val) : res val :=
  try_ (py_best op args) (do l <- map_res ensure_number args; py_best op l).
Definition mysql_greatest := extremum pygt.
Definition mysql_least := extremum pylt.
Definition sqln (f : list val -> res val) (args : list val) : val :=
  match call_func (dispatch 0 1) f args with Ok v => v | Err _ => VNone end.

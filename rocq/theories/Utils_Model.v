(** Model of syncanysql/utils.py. *)
From Coq Require Import SpecFloat.
From Verif Require Import Base PyVal.
Open Scope Z_scope.

(** utils.py:35-47 parse_number, the scanning loop (first loop, lines 36-44): index and dot_index
    after the loop, starting at position i. *)
Fixpoint pn_loop (s : text) (is_float : bool) (i index dot : Z) : Z * Z :=
  match s with
  | [] => (index, dot)
  | c :: r =>
    if is_digit_ascii c then pn_loop r is_float (i + 1) i dot
    else if (index >=? 0) && is_float && (dot <? 0) && (c =? 46)%N
    then pn_loop r is_float (i + 1) index i
    else (index, dot)
  end.

(** utils.py:35-47. *)
Definition parse_number (x : text) (is_float : bool) : res val :=
  let (index, dot) := pn_loop x is_float 0 (-1) (-1) in
  if index <? 0 then
    if is_float then do f <- float_of_text x; Ok (VFloat f) else do z <- int_of_text x; Ok (VInt z)
  else
    let p := pyslice x None (Some (index + 1)) in
    if dot >? 0 then do f <- float_of_text p; Ok (VFloat f) else do z <- int_of_text p; Ok (VInt z).

Definition date_int (y m d : Z) : Z := y * 10000 + m * 100 + d.
Definition time_int (h mi s : Z) : Z := h * 10000 + mi * 100 + s.

(** utils.py:49-69 ensure_int.  bool is an int, so True/False are returned unchanged (line 50). *)
Definition ensure_int (x : val) : res val :=
  match x with
  | VInt _ | VBool _ => Ok x
  | VNone => Err ValueError
  | _ =>
    if negb (truthy x) then Ok (VInt 0)
    else match x with
    | VDatetime y m d h mi s _ => Ok (VInt (date_int y m d * 1000000 + time_int h mi s))
    | VDate y m d => Ok (VInt (date_int y m d))
    | VTime h mi s _ => Ok (VInt (time_int h mi s))
    | VStr s => try_ (do z <- int_of_text s; Ok (VInt z)) (parse_number s false)
    | VFloat f => do z <- Z_of_float f; Ok (VInt z)
    | _ => Err TypeError
    end
  end.

(** utils.py:71-91 ensure_float.  The date/time branches (float of the digits plus
    microsecond/1000) are computed with binary64. *)
Definition ensure_float (x : val) : res val :=
  match x with
  | VFloat _ => Ok x
  | VNone => Err ValueError
  | _ =>
    if negb (truthy x) then Ok (VInt 0)
    else match x with
    | VBool _ => Ok (VInt 1)
    | VDatetime y m d h mi s us =>
        do a <- float_of_Z (date_int y m d * 1000000 + time_int h mi s);
        Ok (VFloat (fadd a (ratio_float us 1000)))
    | VDate y m d => do a <- float_of_Z (date_int y m d); Ok (VFloat a)
    | VTime h mi s us =>
        do a <- float_of_Z (time_int h mi s); Ok (VFloat (fadd a (ratio_float us 1000)))
    | VStr s => try_ (do f <- float_of_text s; Ok (VFloat f)) (parse_number s true)
    | VInt z => do f <- float_of_Z z; Ok (VFloat f)
    | _ => Err TypeError
    end
  end.

Definition has_dot (s : text) : bool := existsb (N.eqb 46) s.

(** utils.py:93-118 ensure_number. *)
Definition ensure_number (x : val) : res val :=
  match x with
  | VBool _ | VInt _ | VFloat _ => Ok x
  | VNone => Err ValueError
  | _ =>
    if negb (truthy x) then Ok (VInt 0)
    else match x with
    | VStr s =>
      if has_dot s then try_ (do f <- float_of_text s; Ok (VFloat f)) (ensure_float x)
      else try_ (do z <- int_of_text s; Ok (VInt z)) (ensure_int x)
    | VDatetime y m d h mi s _ => Ok (VInt (date_int y m d * 1000000 + time_int h mi s))
    | VDate y m d => Ok (VInt (date_int y m d))
    | VTime h mi s _ => Ok (VInt (time_int h mi s))
    | _ => ensure_int x
    end
  end.

(** Zero-padded decimal of at least n digits (strftime fields). *)
Definition pad (n : nat) (z : Z) : text :=
  let s := str_of_Z z in repeat 48%N (n - length s) ++ s.
Definition date_text (y m d : Z) : text := str_of_Z y ++ [45%N] ++ pad 2 m ++ [45%N] ++ pad 2 d.
Definition time_text (h mi s : Z) : text := pad 2 h ++ [58%N] ++ pad 2 mi ++ [58%N] ++ pad 2 s.

(** utils.py:120-137 ensure_str; [frepr] is str(float).
    Simplification: strftime('%Y') of years below 1000 is unpadded (glibc behaviour). *)
Definition ensure_str (frepr : spec_float -> text) (x : val) : res val :=
  match x with
  | VStr _ => Ok x
  | VNone => Err ValueError
  | _ =>
    if negb (truthy x) then Ok (VStr [48%N])
    else match x with
    | VBool _ => Ok (VStr [49%N])
    | VDatetime y m d h mi s _ => Ok (VStr (date_text y m d ++ [32%N] ++ time_text h mi s))
    | VDate y m d => Ok (VStr (date_text y m d))
    | VTime h mi s _ => Ok (VStr (time_text h mi s))
    | VInt z => Ok (VStr (str_of_Z z))
    | VFloat f => Ok (VStr (frepr f))
    | _ => Err TypeError
    end
  end.

(** utils.py:15-33 parse_value.  [sp] str.strip white space, [isdigit] the per-character
    str.isdigit, [lower] str.lower: external, arguments of the model.
    [''.isdigit()] is False. *)
Definition all_digits (isdigit : N -> bool) (s : text) : bool :=
  match s with [] => false | _ => forallb isdigit s end.
Definition is_q (c : N) : bool := (c =? 39)%N || (c =? 34)%N.

(** str.split(sep) for a one-character separator. *)
Fixpoint split_on (sep : N) (s : text) : list text :=
  match s with
  | [] => [[]]
  | c :: r => if (c =? sep)%N then [] :: split_on sep r
              else match split_on sep r with [] => [[c]] | g :: gs => (c :: g) :: gs end
  end.

Definition parse_value (sp isdigit : N -> bool) (lower : text -> text) (value : text) : res val :=
  let value := strip sp value in
  match value with
  | [] => Ok (VStr [])
  | c0 :: rest =>
    if (2 <=? Z.of_nat (length value)) && is_q c0 && is_q (last value 0%N)
    then Ok (VStr (pyslice value (Some 1) (Some (-1))))
    else if all_digits isdigit value || ((c0 =? 45)%N && all_digits isdigit rest)
    then do z <- int_of_text value; Ok (VInt z)
    else if text_eqb (lower value) (t "true") then Ok (VBool true)
    else if text_eqb (lower value) (t "false") then Ok (VBool false)
    else if text_eqb (lower value) (t "null") then Ok VNone
    else match split_on 46 value with
    | [a; b] =>
      (* value[0][0] == "-" and value[0][1:].isdigit(): value[0] is one character, its tail is empty *)
      if (all_digits isdigit a || ((c0 =? 45)%N && all_digits isdigit [])) && all_digits isdigit b
      then do f <- float_of_text value; Ok (VFloat f)
      else Ok (VStr value)
    | _ => Ok (VStr value)
    end
  end.

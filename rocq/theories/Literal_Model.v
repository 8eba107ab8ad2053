(** Model of the constants of a statement: compiler.py:2701-2749 parse_const, 2878-2885 is_const, 1998-2001 compile_const.

    The text of a literal is what sqlglot's tokenizer hands over (quotes removed). SYNCANYENCODING is unset ("utf-8").
    External: Python's str.encode("utf-8") on code points up to 256 and bytes.decode("unicode_escape") are modelled exactly;
    the table of Unicode character names (\N{...}) is the argument [uname]. *)
From Coq Require Import SpecFloat.
From Verif Require Import Base PyVal.
Local Open Scope N_scope.

(** str.encode("utf-8") of a code point up to 256. *)
Definition utf8 (c : N) : list N := if c <? 128 then [c] else [192 + c / 64; 128 + c mod 64].

Definition octal (c : N) : option N := if (48 <=? c) && (c <=? 55) then Some (c - 48) else None.
Definition hexval (c : N) : option N :=
  if (48 <=? c) && (c <=? 57) then Some (c - 48)
  else if (97 <=? c) && (c <=? 102) then Some (c - 87)
  else if (65 <=? c) && (c <=? 70) then Some (c - 55)
  else None.
(** [n] hexadecimal digits. *)
Fixpoint hexdigits (n : nat) (acc : N) (s : list N) : option (N * list N) :=
  match n with
  | O => Some (acc, s)
  | S n => match s with
           | [] => None
           | c :: r => match hexval c with None => None | Some d => hexdigits n (16 * acc + d) r end
           end
  end.
(** At most [n] further octal digits. *)
Fixpoint octdigits (n : nat) (acc : N) (s : list N) : N * list N :=
  match n, s with
  | S n, c :: r => match octal c with None => (acc, s) | Some d => octdigits n (8 * acc + d) r end
  | _, _ => (acc, s)
  end.
(** The characters before the first "}". *)
Fixpoint to_brace (s : list N) : option (list N * list N) :=
  match s with
  | [] => None
  | 125 :: r => Some ([], r)
  | c :: r => match to_brace r with None => None | Some (a, b) => Some (c :: a, b) end
  end.

Section Decode.
Variable uname : list N -> option N.

(** bytes.decode("unicode_escape"); None: UnicodeDecodeError. The length bounds the number of steps. *)
Fixpoint unescape (fuel : nat) (s : list N) : option (list N) :=
  match fuel with
  | O => Some []
  | S fuel =>
    let next (out : list N) (r : list N) := match unescape fuel r with None => None | Some v => Some (out ++ v) end in
    match s with
    | [] => Some []
    | c :: r =>
      if negb (c =? 92) then next [c] r
      else match r with
           | [] => None
           | e :: r =>
             if e =? 10 then next [] r
             else if (e =? 92) || (e =? 39) || (e =? 34) then next [e] r
             else if e =? 98 then next [8] r
             else if e =? 102 then next [12] r
             else if e =? 116 then next [9] r
             else if e =? 110 then next [10] r
             else if e =? 114 then next [13] r
             else if e =? 118 then next [11] r
             else if e =? 97 then next [7] r
             else match octal e with
                  | Some d => let (v, r) := octdigits 2 d r in next [v] r
                  | None =>
                    if (e =? 120) || (e =? 117) || (e =? 85) then
                      match hexdigits (if e =? 120 then 2%nat else if e =? 117 then 4%nat else 8%nat) 0 r with
                      | None => None
                      | Some (v, r) => if v <=? 1114111 then next [v] r else None
                      end
                    else if e =? 78 then
                      match r with
                      | 123 :: r => match to_brace r with
                                    | Some ((_ :: _) as nm, r) => match uname nm with Some v => next [v] r | None => None end
                                    | _ => None
                                    end
                      | _ => None
                      end
                    else next [92; e] r
                  end
           end
    end
  end.
Definition decode (run : list N) : option (list N) :=
  let b := flat_map utf8 run in unescape (length b) b.

(** compiler.py:2714-2725: [run] is escape_chars, the result so far escape_values. *)
Fixpoint scan (run : list N) (s : text) : option text :=
  let flush (k : option text) := match run with
                                 | [] => k
                                 | _ => match decode run, k with Some a, Some b => Some (a ++ b) | _, _ => None end
                                 end in
  match s with
  | [] => flush (Some [])
  | c :: r =>
    if c <=? 256 then scan (run ++ [c]) r
    else flush (match scan [] r with Some v => Some (c :: v) | None => None end)
  end.
(** compiler.py:2712-2728: any exception leaves the value as it is. *)
Definition literal (s : text) : text := match scan [] s with Some v => v | None => s end.

(** A constant; a number literal is given by its value (int(...) or float(...) of its text). *)
Inductive const :=
| KInt (z : Z)                   (* Literal, is_int *)
| KFloat (f : spec_float)        (* Literal, other number *)
| KText (s : text)               (* Literal, string *)
| KBool (b : bool)
| KNull
| KHex (z : Z)                   (* HexString: its decimal text, written by sqlglot's tokenizer *)
| KBit (z : Z)                   (* BitString *)
| KParam (name : text).          (* @name *)

(** compiler.py:2701-2749: the value of a constant, [neg] when a minus sign is before it; [env] is env_variables.get_value,
    None for KeyError. *)
Definition parse_const (env : text -> option val) (neg : bool) (c : const) : val :=
  match c with
  | KInt z => VInt (if neg then (- z)%Z else z)
  | KFloat f => VFloat (if neg then SFopp f else f)
  | KText s => VStr (literal s)
  | KBool b => VBool b
  | KHex z => VInt z
  | KParam n => match env (t "@" ++ n) with Some v => v | None => VNone end
  | KNull | KBit _ => VNone
  end.
(** compiler.py:1998-2001 and env_variable_calculater.py:21-30: what the compiled constant is when the statement runs;
    [env'] are the variables at that time. *)
Definition const_value (env env' : text -> option val) (neg : bool) (c : const) : val :=
  match c with
  | KParam n => match env' (t "@" ++ n) with Some v => v | None => VNone end
  | _ => parse_const env neg c
  end.
End Decode.

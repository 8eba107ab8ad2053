(** Model of the coding functions of syncanysql/calculaters/mysql_funcs/string_funcs.py: bin, hex, unhex, oct, ord, ascii, char (11-61),
    crc32, to_base64, from_base64 (224-241), inet4_aton, inet4_ntoa, is_ipv4 and their IPv6 counterparts (243-307).

    Trusted reading of Python's libraries: str.encode("utf-8") and bytes.decode("utf-8") (strict), binascii.b2a_hex / a2b_hex,
    base64.b64encode, base64.b64decode (binascii.a2b_base64 without strict mode: characters outside the alphabet are skipped, a complete
    padding ends the input), bin, oct, hex of integers.  Shifts and ors of disjoint bits are written as arithmetic.
    Arguments: zlib.crc32 on bytes, socket.inet_aton / inet_pton (text to bytes or an error), inet_ntoa / inet_ntop on bytes. *)
From Coq Require Import SpecFloat.
From Verif Require Import Base PyVal Utils_Model Calc_Model Str_Model.

(** A value of an expression, or Python bytes. *)
Inductive bval := Val (v : val) | Bytes (b : list N).

Open Scope N_scope.

(** str.encode("utf-8"); None: UnicodeEncodeError (surrogates). *)
Definition enc1 (c : N) : option (list N) :=
  if c <? 128 then Some [c]
  else if c <? 2048 then Some [192 + c / 64; 128 + c mod 64]
  else if (55296 <=? c) && (c <=? 57343) then None
  else if c <? 65536 then Some [224 + c / 4096; 128 + (c / 64) mod 64; 128 + c mod 64]
  else if c <? 1114112 then Some [240 + c / 262144; 128 + (c / 4096) mod 64; 128 + (c / 64) mod 64; 128 + c mod 64]
  else None.
Fixpoint encode (s : text) : res (list N) :=
  match s with
  | [] => Ok []
  | c :: r => match enc1 c with None => Err ValueError | Some a => do b <- encode r; Ok (a ++ b) end
  end.

(** bytes.decode("utf-8"), strict: overlong forms, surrogates and numbers above U+10FFFF are errors. *)
Definition cont (b : N) : bool := (128 <=? b) && (b <? 192).
Definition cons_res (c : N) (r : res text) : res text := do x <- r; Ok (c :: x).
Fixpoint decode (b : list N) : res text :=
  match b with
  | [] => Ok []
  | b0 :: r =>
    if b0 <? 128 then cons_res b0 (decode r)
    else match r with
    | [] => Err ValueError
    | b1 :: r1 =>
      if negb (cont b1) then Err ValueError
      else if (194 <=? b0) && (b0 <? 224) then cons_res ((b0 - 192) * 64 + (b1 - 128)) (decode r1)
      else match r1 with
      | [] => Err ValueError
      | b2 :: r2 =>
        if negb (cont b2) then Err ValueError
        else if (224 <=? b0) && (b0 <? 240) then
          let c := ((b0 - 224) * 64 + (b1 - 128)) * 64 + (b2 - 128) in
          if (c <? 2048) || ((55296 <=? c) && (c <=? 57343)) then Err ValueError else cons_res c (decode r2)
        else match r2 with
        | [] => Err ValueError
        | b3 :: r3 =>
          if negb (cont b3) then Err ValueError
          else if (240 <=? b0) && (b0 <? 245) then
            let c := (((b0 - 240) * 64 + (b1 - 128)) * 64 + (b2 - 128)) * 64 + (b3 - 128) in
            if (c <? 65536) || (1114112 <=? c) then Err ValueError else cons_res c (decode r3)
          else Err ValueError
        end
      end
    end
  end.

(** base64.b64encode: the character of six bits, and the groups of three bytes. *)
Definition b64_char (v : N) : N :=
  if v <? 26 then 65 + v else if v <? 52 then 97 + (v - 26) else if v <? 62 then 48 + (v - 52) else if v =? 62 then 43 else 47.
Fixpoint b64encode (b : list N) : text :=
  match b with
  | [] => []
  | [x] => [b64_char (x / 4); b64_char ((x mod 4) * 16); 61; 61]
  | [x; y] => [b64_char (x / 4); b64_char ((x mod 4) * 16 + y / 16); b64_char ((y mod 16) * 4); 61]
  | x :: y :: z :: r =>
    b64_char (x / 4) :: b64_char ((x mod 4) * 16 + y / 16) :: b64_char ((y mod 16) * 4 + z / 64) :: b64_char (z mod 64) :: b64encode r
  end.

(** base64.b64decode = binascii.a2b_base64(strict_mode=False): the state is the position in the group, the bits left over and the number of
    padding characters. *)
Definition b64_value (c : N) : option N :=
  if (65 <=? c) && (c <=? 90) then Some (c - 65) else if (97 <=? c) && (c <=? 122) then Some (c - 97 + 26)
  else if (48 <=? c) && (c <=? 57) then Some (c - 48 + 52) else if c =? 43 then Some 62 else if c =? 47 then Some 63 else None.
Fixpoint b64go (quad left pads : N) (s : text) : res (list N) :=
  match s with
  | [] => if quad =? 0 then Ok [] else Err ValueError
  | c :: r =>
    if c =? 61 then
      if (2 <=? quad) && (4 <=? quad + (pads + 1)) then Ok []
      else b64go quad left (if 2 <=? quad then pads + 1 else pads) r
    else match b64_value c with
    | None => b64go quad left pads r
    | Some v =>
      if quad =? 0 then b64go 1 v 0 r
      else if quad =? 1 then do o <- b64go 2 (v mod 16) 0 r; Ok (left * 4 + v / 16 :: o)
      else if quad =? 2 then do o <- b64go 3 (v mod 4) 0 r; Ok (left * 16 + v / 4 :: o)
      else do o <- b64go 0 0 0 r; Ok (left * 64 + v :: o)
    end
  end.
Definition b64decode (s : text) : res (list N) := b64go 0 0 0 s.

(** string_funcs.py:231-235, 237-241 *)
Definition mysql_from_base64 (v : bval) : res bval :=
  match v with
  | Val VNone => Ok (Val VNone)
  | Val (VStr s) => do b <- encode s; do d <- b64decode b; do x <- decode d; Ok (Val (VStr x))
  | _ => Err AttributeError
  end.
Definition mysql_to_base64 (v : bval) : res bval :=
  match v with
  | Val VNone => Ok (Val VNone)
  | Val (VStr s) => do b <- encode s; Ok (Val (VStr (b64encode b)))
  | _ => Err AttributeError
  end.

(** binascii.b2a_hex and a2b_hex *)
Definition hex_char (d : N) : N := if d <? 10 then 48 + d else 97 + (d - 10).
Definition b2a_hex (b : list N) : text := flat_map (fun x => [hex_char (x / 16); hex_char (x mod 16)]) b.
Definition hex_value (c : N) : option N :=
  if (48 <=? c) && (c <=? 57) then Some (c - 48) else if (97 <=? c) && (c <=? 102) then Some (c - 97 + 10)
  else if (65 <=? c) && (c <=? 70) then Some (c - 65 + 10) else None.
Fixpoint a2b_hex (s : text) : res (list N) :=
  match s with
  | [] => Ok []
  | [_] => Err ValueError
  | a :: b :: r => match hex_value a, hex_value b with Some x, Some y => do o <- a2b_hex r; Ok (x * 16 + y :: o) | _, _ => Err ValueError end
  end.

(** The digits of a number, most significant first; bin, oct, hex of an integer. *)
Fixpoint digits_go (fuel : nat) (b n : N) (acc : list N) : list N :=
  match fuel with O => acc | S f => if n <? b then n :: acc else digits_go f b (n / b) (n mod b :: acc) end.
Definition digits (b n : N) : list N := digits_go (S (N.size_nat n)) b n [].
Definition radix (b : N) (mark : N) (z : Z) : text :=
  (if (z <? 0)%Z then [45] else []) ++ 48 :: mark :: map hex_char (digits b (Z.abs_N z)).

(** int(x) of a number *)
Definition int_of (v : val) : res Z :=
  match v with VInt z => Ok z | VBool b => Ok (b2z b) | VFloat f => Z_of_float f | _ => Err TypeError end.

(** string_funcs.py:11-20 bin (bool is a subclass of int: the branches x is True are never reached) *)
Definition mysql_bin (v : bval) : res bval :=
  match v with
  | Val VNone => Ok (Val VNone)
  | Val (VInt _ as x) | Val (VBool _ as x) | Val (VFloat _ as x) => do z <- int_of x; Ok (Val (VStr (radix 2 98 z)))
  | Val (VStr []) | Bytes [] => Ok (Val (VStr (radix 2 98 0)))
  | _ => Err TypeError
  end.
(** 22-31 hex; 33-37 unhex *)
Definition mysql_hex (v : bval) : res bval :=
  match v with
  | Val VNone => Ok (Val VNone)
  | Val (VInt _ as x) | Val (VBool _ as x) | Val (VFloat _ as x) => do z <- int_of x; Ok (Val (VStr (radix 16 120 z)))
  | Val (VStr []) | Bytes [] => Ok (Val (VStr (radix 16 120 0)))
  | Val (VStr s) => do b <- encode s; Ok (Val (VStr (b2a_hex b)))
  | _ => Err AttributeError
  end.

Section Codec.
Variable frepr : spec_float -> text.
(** ensure_str (utils.py:120-137), which also decodes bytes (empty bytes are falsy: '0') *)
Definition bstr (v : bval) : res text :=
  match v with Val x => estr frepr x | Bytes [] => Ok [48] | Bytes b => decode b end.

Definition mysql_unhex (v : bval) : res bval :=
  match v with Val VNone => Ok (Val VNone) | _ => do s <- bstr v; do b <- a2b_hex s; Ok (Bytes b) end.

(** 39-43 oct: oct(x)[2:] *)
Definition mysql_oct (v : bval) : res bval :=
  match v with
  | Val VNone => Ok (Val VNone)
  | Val (VInt _ as x) | Val (VBool _ as x) => do z <- int_of x; Ok (Val (VStr (pyslice (radix 8 111 z) (Some 2%Z) None)))
  | _ => Err TypeError
  end.
(** 45-49 ord; 51-55 ascii *)
Definition mysql_ord (v : bval) : res bval :=
  match v with
  | Val VNone => Ok (Val VNone)
  | _ => do s <- bstr v; match s with [c] => Ok (Val (VInt (Z.of_N c))) | _ => Err TypeError end
  end.
Definition mysql_ascii (v : bval) : res bval :=
  match v with
  | Val VNone => Ok (Val VNone)
  | _ => do s <- bstr v; Ok (Val (VInt (Z.of_N (fold_right N.add 0 s))))
  end.
(** 57-59 char: chr(arg) *)
Definition py_chr (v : bval) : res N :=
  match v with
  | Val x => match as_int x with Some z => if ((0 <=? z) && (z <? 1114112))%Z then Ok (Z.to_N z) else Err ValueError | None => Err TypeError end
  | Bytes _ => Err TypeError
  end.
Definition mysql_char (args : list bval) : res bval := do l <- map_res py_chr args; Ok (Val (VStr l)).

(** 223-228 crc32: zlib.crc32 takes bytes only *)
Variable crc32 : list N -> N.
Definition mysql_crc32 (v : bval) : res bval :=
  match v with Val VNone => Ok (Val VNone) | Bytes b => Ok (Val (VInt (Z.of_N (crc32 b)))) | _ => Err TypeError end.

(** 243-307; [aton]: inet_aton or inet_pton(AF_INET6), [ntoa]: inet_ntoa or inet_ntop(AF_INET6) *)
Variable aton : text -> res (list N).
Variable ntoa : list N -> res text.
Definition mysql_inet_aton (v : bval) : res bval :=
  match v with
  | Val VNone => Ok (Val VNone)
  | Val (VStr s) => try_ (do b <- aton s; Ok (Val (VStr (b2a_hex b)))) (Ok (Val VNone))
  | _ => Ok (Val VNone)
  end.
Definition mysql_inet_ntoa (v : bval) : res bval :=
  match v with
  | Bytes b => try_ (do s <- ntoa b; Ok (Val (VStr s))) (Ok (Val VNone))
  | Val _ => Ok (Val VNone)
  end.
Definition mysql_is_ip (v : bval) : res bval :=
  match v with
  | Val VNone => Ok (Val VNone)
  | Val (VStr s) => match aton s with Ok _ => Ok (Val (VInt 1)) | Err _ => Ok (Val (VInt 0)) end
  | _ => Ok (Val (VInt 0))
  end.
End Codec.

(** calculaters/mysql_calculater.py: an exception inside the function is NULL (Calc_Model, C13) *)
Definition guarded (r : res bval) : bval := match r with Ok v => v | Err _ => Val VNone end.

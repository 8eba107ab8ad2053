(** Model of syncanysql/calculaters/mysql_funcs/string_funcs.py (the functions that are determined by
    Python's str operations; not modelled: bin/hex/oct of numbers, base64, crc32, inet_*, case mapping). *)
From Coq Require Import SpecFloat.
From Verif Require Import Base PyVal Utils_Model Calc_Model.
Open Scope Z_scope.

Section Str.
Variable frepr : spec_float -> text.   (* str(float) *)

(** An index operand of a slice or of arithmetic with 1: int or bool, anything else TypeError. *)
Definition need_int (v : val) : res Z :=
  match as_int v with Some z => Ok z | None => Err TypeError end.
Definition need_str (v : val) (e : exn) : res text :=
  match v with VStr s => Ok s | _ => Err e end.
(** ensure_str as text. *)
Definition estr (v : val) : res text := do s <- ensure_str frepr v; need_str s TypeError.

(** string_funcs.py:76-79 (= 82-85) char_length. *)
Definition mysql_char_length (s : val) : res val :=
  if is_none s then Ok VNone else do x <- estr s; Ok (VInt (Z.of_nat (length x))).

(** UTF-8 length of a code point; surrogates cannot be encoded (UnicodeEncodeError, a ValueError). *)
Definition utf8_len (c : N) : option nat :=
  if (c <? 128)%N then Some 1%nat else if (c <? 2048)%N then Some 2%nat
  else if ((55296 <=? c) && (c <=? 57343))%N then None
  else if (c <? 65536)%N then Some 3%nat else Some 4%nat.
Fixpoint utf8_length (s : text) : option nat :=
  match s with
  | [] => Some 0%nat
  | c :: r => match utf8_len c, utf8_length r with Some a, Some b => Some (a + b)%nat | _, _ => None end
  end.
(** string_funcs.py:70-73 length, 64-67 bit_length. *)
Definition mysql_length (s : val) : res val :=
  if is_none s then Ok VNone
  else do x <- need_str s AttributeError;
       match utf8_length x with Some n => Ok (VInt (Z.of_nat n)) | None => Err ValueError end.
Definition mysql_bit_length (s : val) : res val :=
  if is_none s then Ok VNone
  else do x <- need_str s AttributeError;
       match utf8_length x with Some n => Ok (VInt (Z.of_nat n * 8)) | None => Err ValueError end.

(** string_funcs.py:88-89 concat. *)
Definition mysql_concat (args : list val) : res val := do l <- map_res estr args; Ok (VStr (concat l)).

(** d.join(parts) *)
Fixpoint join (d : text) (l : list text) : text :=
  match l with
  | [] => []
  | [a] => a
  | a :: l' => a ++ d ++ join d l'
  end.
(** string_funcs.py:92-93 concat_ws: the first argument is sep; sep.join on a non-str is an AttributeError. *)
Definition mysql_concat_ws (args : list val) : res val :=
  match args with
  | [] => Err TypeError
  | sep :: r => do d <- need_str sep AttributeError; do l <- map_res estr r; Ok (VStr (join d l))
  end.

(** string_funcs.py:96-98 insert. *)
Definition mysql_insert (s1 x l s2 : val) : res val :=
  do a <- estr s1; do b <- estr s2; do n <- need_int x; do k <- need_int l;
  Ok (VStr (pyslice a None (Some (n - 1)) ++ b ++ pyslice a (Some (n + k - 1)) None)).

(** string_funcs.py:119-122 left, 125-128 right.  A None bound means no bound for left ([s[:None]]). *)
Definition mysql_left (s x : val) : res val :=
  if is_none s then Ok VNone
  else do a <- estr s;
       if is_none x then Ok (VStr a) else do n <- need_int x; Ok (VStr (pyslice a None (Some n))).
Definition mysql_right (s x : val) : res val :=
  if is_none s then Ok VNone
  else do a <- estr s; do n <- need_int x; Ok (VStr (pyslice a (Some (- n)) None)).

(** string_funcs.py:131-134 trim; [sp] is str.strip's white space. *)
Definition mysql_trim (sp : N -> bool) (s : val) : res val :=
  if is_none s then Ok VNone else do a <- estr s; Ok (VStr (strip sp a)).

(** string_funcs.py:137-138 elt. [n] is compared with an int: TypeError for non-numbers.
    Simplification: a float n is a TypeError here (Python raises it at the indexing). *)
Definition mysql_elt (args : list val) : res val :=
  match args with
  | [] => Err TypeError
  | n :: r => do k <- need_int n;
              if k <? Z.of_nat (length r) then
                match pyindex r (k - 1) with Some v => Ok v | None => Err IndexError end
              else Ok VNone
  end.

(** tuple.index / list.index: position of the first element equal (==) to x. *)
Fixpoint index_of (x : val) (l : list val) (i : Z) : option Z :=
  match l with
  | [] => None
  | v :: r => if pyeq v x then Some i else index_of x r (i + 1)
  end.
(** string_funcs.py:141-147 field. *)
Definition mysql_field (args : list val) : res val :=
  match args with
  | [] => Err TypeError
  | s :: r => if is_none s then Ok VNone
              else Ok (VInt (match index_of s r 0 with Some i => i + 1 | None => 0 end))
  end.

Fixpoint prefixb (p s : text) : bool :=
  match p, s with
  | [], _ => true
  | _, [] => false
  | x :: p', y :: s' => (x =? y)%N && prefixb p' s'
  end.
(** str.split(d), d not empty: scan left to right; [skip] characters of a delimiter still to pass,
    [cur] the current part, reversed. *)
Fixpoint split_go (d : text) (skip : nat) (cur : text) (s : text) : list text :=
  match s with
  | [] => [rev cur]
  | c :: r =>
    match skip with
    | S k => split_go d k cur r
    | O => if prefixb d s then rev cur :: split_go d (length d - 1) [] r
           else split_go d 0 (c :: cur) r
    end
  end.
Definition py_split (s d : text) : res (list text) :=
  match d with [] => Err ValueError | _ => Ok (split_go d 0 [] s) end.

(** string_funcs.py:150-156 find_in_set. *)
Definition mysql_find_in_set (s ss : val) : res val :=
  if is_none s then Ok VNone
  else match (do a <- estr ss; py_split a [44%N]) with
       | Ok l => Ok (VInt (match index_of s (map VStr l) 0 with Some i => i + 1 | None => 0 end))
       | Err ValueError => Ok (VInt 0)
       | Err e => Err e
       end.

(** str.replace(old, new); with an empty old, new is put before every character and at the end. *)
Definition py_replace (s old new : text) : text :=
  match old with
  | [] => new ++ concat (map (fun c => c :: new) s)
  | _ => join new (split_go old 0 [] s)
  end.
(** string_funcs.py:159-162 replace. *)
Definition mysql_replace (s s1 s2 : val) : res val :=
  if is_none s then Ok VNone
  else do a <- estr s; do b <- need_str s1 TypeError; do c <- need_str s2 TypeError;
       Ok (VStr (py_replace a b c)).

(** string_funcs.py:165-171 substring (= 174-180 substr). *)
Definition mysql_substring (s n l : val) : res val :=
  if is_none s then Ok VNone
  else do a <- estr s; do i <- need_int n;
       match as_int l with
       | Some k => Ok (VStr (pyslice a (Some (i - 1)) (Some (i + k - 1))))
       | None => Ok (VStr (pyslice a (Some (i - 1)) None))
       end.

(** string_funcs.py:183-189 substring_index. *)
Definition mysql_substring_index (s d c : val) : res val :=
  if is_none s then Ok VNone
  else do a <- estr s; do b <- estr d; do k <- need_int c;
       if k <? 0 then do l <- py_split a b; Ok (VStr (join b (pyslice l (Some (- k)) None)))
       else do l <- py_split a b; Ok (VStr (join b (pyslice l None (Some k)))).

(** string_funcs.py:192-195 repeat, 198-201 reverse. *)
Definition mysql_repeat (s c : val) : res val :=
  if is_none s then Ok VNone
  else do a <- estr s; do k <- need_int c; Ok (VStr (concat (repeat a (Z.to_nat k)))).
Definition mysql_reverse (s : val) : res val :=
  if is_none s then Ok VNone else do a <- estr s; Ok (VStr (rev a)).

(** string_funcs.py:204-208 strcmp. *)
Definition mysql_strcmp (s1 s2 : val) : res val :=
  if is_none s1 || is_none s2 then Ok VNone
  else do a <- estr s1; do b <- estr s2;
       Ok (VInt (if text_eqb a b then 0 else match tcmp a b with Lt => -1 | _ => 1 end)).

(** string_funcs.py:211-222 startswith, endswith; 225-232 contains. *)
Definition mysql_startswith (s1 s2 : val) : res val :=
  if is_none s1 || is_none s2 then Ok VNone
  else do a <- estr s1; do b <- estr s2; Ok (b2v (prefixb b a)).
Definition mysql_endswith (s1 s2 : val) : res val :=
  if is_none s1 || is_none s2 then Ok VNone
  else do a <- estr s1; do b <- estr s2; Ok (b2v (prefixb (rev b) (rev a))).
Fixpoint infixb (p s : text) : bool :=
  prefixb p s || match s with [] => false | _ :: r => infixb p r end.
(** [s2 in s1] is a TypeError unless both are str (for the modelled values). *)
Definition mysql_contains (s1 s2 : val) : res val :=
  if is_none s1 || is_none s2 then Ok VNone
  else match s1, s2 with
       | VStr a, VStr b => Ok (b2v (infixb b a))
       | _, _ => do a <- estr s1; do b <- estr s2; Ok (b2v (infixb b a))
       end.
End Str.

(** Model of syncanysql/calculaters/mysql_funcs/regexp_funcs.py: LIKE completely, and the occurrence
    loops of REGEXP_INSTR / REGEXP_SUBSTR / REGEXP_REPLACE over an arbitrary matcher. *)
From Verif Require Import Base PyVal Calc_Model.
Open Scope Z_scope.

(** ** LIKE *)
Inductive tok := Lit (c : N) | Any.   (* a literal character; ".*" *)

(** regexp_funcs.py:114: [".*" if r == '%%' else "".join([rg.replace("%", ".*") for rg in
    re.escape(r).split("%%")])], as a token list instead of regex text.  re.escape (Python >= 3.7)
    leaves '%' and '_' alone and escapes every special character, so each other character of r denotes
    itself; "%%" pairs, found left to right, are separators that are dropped. *)
Fixpoint like_tokens (r : text) : list tok :=
  match r with
  | [] => []
  | c :: r' =>
    if (c =? 37)%N then
      match r' with
      | d :: r'' => if (d =? 37)%N then like_tokens r'' else Any :: like_tokens r'
      | [] => [Any]
      end
    else Lit c :: like_tokens r'
  end.
Definition like_pattern (r : text) : list tok :=
  if text_eqb r [37; 37]%N then [Any] else like_tokens r.

Section Like.
(** re.IGNORECASE equality of two characters: external. *)
Variable ci : N -> N -> bool.

(** re.match on such a pattern: does some prefix of s match (no end anchor)?  '.' does not match a
    newline (no re.DOTALL). *)
Fixpoint re_match (p : list tok) (s : text) : bool :=
  match p with
  | [] => true
  | Lit c :: p' => match s with [] => false | x :: s' => ci c x && re_match p' s' end
  | Any :: p' =>
    (fix any (s : text) : bool :=
       re_match p' s || match s with [] => false | x :: s' => negb (x =? 10)%N && any s' end) s
  end.

(** regexp_funcs.py:111-118 mysql_like with the default flags.  A non-text pattern fails in re.escape
    (outside the try), a non-text subject inside it. *)
Definition mysql_like (s r : val) : res val :=
  if is_none r || is_none s then Ok VNone
  else match r with
       | VStr p => match s with
                   | VStr x => Ok (b2v (re_match (like_pattern p) x))
                   | _ => Ok (VInt 0)
                   end
       | _ => Err TypeError
       end.
End Like.

(** ** REGEXP_INSTR / REGEXP_SUBSTR / REGEXP_REPLACE *)
Section Regexp.
(** re.search(r, cs, flags): the span of the first match in cs, if any. *)
Variable search : text -> option (nat * nat).

(** regexp_funcs.py:46-64, the loop 52-62; [n] bounds the number of iterations (occurrence falls by one
    in each).  Returns 0 when there is no such match. *)
Fixpoint instr_loop (n : nat) (cs : text) (pos occurrence : Z) (ret_end : bool) : Z :=
  match n with
  | O => 0
  | S n' =>
    match cs with
    | [] => 0
    | _ => match search cs with
           | None => 0
           | Some (a, b) =>
             if occurrence <=? 1 then pos + Z.of_nat (if ret_end then b else a)
             else instr_loop n' (skipn b cs) (pos + Z.of_nat b) (occurrence - 1) ret_end
           end
    end
  end.
Definition regexp_instr (s : text) (pos occurrence : Z) (ret_end : bool) : Z :=
  instr_loop (S (Z.to_nat occurrence)) (pyslice s (Some (pos - 1)) None) pos occurrence ret_end.

(** regexp_funcs.py:90-108, the loop 96-106. *)
Fixpoint substr_loop (n : nat) (cs : text) (occurrence : Z) : option text :=
  match n with
  | O => None
  | S n' =>
    match cs with
    | [] => None
    | _ => match search cs with
           | None => None
           | Some (a, b) =>
             if occurrence <=? 1 then Some (pyslice cs (Some (Z.of_nat a)) (Some (Z.of_nat b)))
             else substr_loop n' (skipn b cs) (occurrence - 1)
           end
    end
  end.
Definition regexp_substr (s : text) (pos occurrence : Z) : option text :=
  substr_loop (S (Z.to_nat occurrence)) (pyslice s (Some (pos - 1)) None) occurrence.

(** regexp_funcs.py:67-87, the loop 75-85 (occurrence >= 1); [sub cs] is re.sub over all matches. *)
Fixpoint replace_loop (n : nat) (s rs cs : text) (pos occurrence : Z) : text :=
  match n with
  | O => s
  | S n' =>
    match cs with
    | [] => s
    | _ => match search cs with
           | None => s
           | Some (a, b) =>
             if occurrence <=? 1
             then pyslice s None (Some (pos + Z.of_nat a - 1)) ++ rs ++ pyslice s (Some (pos + Z.of_nat b - 1)) None
             else replace_loop n' s rs (skipn b cs) (pos + Z.of_nat b) (occurrence - 1)
           end
    end
  end.
Definition regexp_replace (sub : text -> text) (s rs : text) (pos occurrence : Z) : text :=
  let cs := pyslice s (Some (pos - 1)) None in
  if occurrence <=? 0 then sub cs
  else replace_loop (S (Z.to_nat occurrence)) s rs cs pos occurrence.
End Regexp.

(** regexp_funcs.py:8-25 parse_flags for a non-numeric match_type: the bits I (ignore case), M, S, U. *)
Record flags := mkflags { f_i : bool; f_m : bool; f_s : bool; f_u : bool }.
Fixpoint flags_loop (l : text) (f : flags) : flags :=
  match l with
  | [] => f
  | c :: r =>
    flags_loop r
      (if (c =? 99)%N then mkflags false (f_m f) (f_s f) (f_u f)
       else if (c =? 105)%N then mkflags true (f_m f) (f_s f) (f_u f)
       else if (c =? 109)%N then mkflags (f_i f) true (f_s f) (f_u f)
       else if (c =? 110)%N then mkflags (f_i f) (f_m f) true (f_u f)
       else if (c =? 117)%N then mkflags (f_i f) (f_m f) (f_s f) true
       else f)
  end.
Definition parse_flags (lowered : text) : flags := flags_loop lowered (mkflags true false false false).

(** REGEXP and REGEXP_LIKE (syncanysql/calculaters/mysql_funcs/regexp_funcs.py 27-43), beside REGEXP_INSTR. *)
From Verif Require Import Base PyVal Calc_Model Regexp_Model.
Open Scope Z_scope.

(** What Python's re module does with one pattern and flags: [at_ s i] is the end of the match the engine finds in s starting
    exactly at position i, None if there is none. *)
Definition engine := text -> nat -> option nat.
(** re.match(r, s): a match at the beginning. *)
Definition re_match_at (at_ : engine) (s : text) : option nat := at_ s 0%nat.
(** re.search(r, s): the match with the smallest start; positions 0 to len(s). *)
Fixpoint search_from (at_ : engine) (s : text) (n i : nat) : option (nat * nat) :=
  match at_ s i with
  | Some j => Some (i, j)
  | None => match n with O => None | S n' => search_from at_ s n' (S i) end
  end.
Definition re_search (at_ : engine) (s : text) : option (nat * nat) := search_from at_ s (length s) 0.

(** regexp_funcs.py 27-34, mysql_regexp, and 36-43, mysql_regexplike, which is the same text. [compiled] is what re.compile makes
    of the pattern and the match type: an exception for a bad pattern, or for a match type that is not a text. *)
Definition mysql_regexp (compiled : text -> val -> res engine) (s r match_type : val) : res val :=
  if is_none r || is_none s then Ok VNone
  else Ok match r, s with
          | VStr p, VStr x =>
              match compiled p match_type with
              | Ok at_ => match re_match_at at_ x with Some _ => VInt 1 | None => VInt 0 end
              | Err _ => VInt 0
              end
          | _, _ => VInt 0
          end.
(** regexp_funcs.py 45-64, mysql_regexp_instr(s, r) with the defaults pos = 1, occurrence = 1, return_option = 0. *)
Definition mysql_regexp_instr (compiled : text -> val -> res engine) (s r match_type : val) : res val :=
  if is_none r || is_none s then Ok VNone
  else Ok match r, s with
          | VStr p, VStr x =>
              match compiled p match_type with
              | Ok at_ => VInt (regexp_instr (re_search at_) x 1 1 false)
              | Err _ => VInt 0
              end
          | _, _ => VInt 0
          end.

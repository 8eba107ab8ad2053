(** Model of compiler.py:56-85 CompilerDialect.Parser._parse_limit and _parse_offset, which read LIMIT m, n on top of sqlglot's parser.
    Simplification: the parser's position is the list of the tokens still to be read; tokens other than those tested are told apart by a number only;
    sqlglot's own two methods, and the expression it makes of a number, are parameters. *)
From Verif Require Import Base.
Set Implicit Arguments.

Inductive token := LIMIT | OFFSET | COMMA | NUMBER (digits : text) | TOKEN (other : N).

Section Limit.
Variable E : Type.
Variable number : text -> E.                                         (* PRIMARY_PARSERS[NUMBER] *)
Variables base_limit base_offset : list token -> option E * list token.   (* sqlglot's _parse_limit, _parse_offset: what was read, if anything, and the rest *)

(** compiler.py:56-69: nothing is consumed when the comma form is seen. [top]: SELECT TOP. *)
Definition parse_limit (top : bool) (ts : list token) : option E * list token :=
  if top then base_limit ts
  else match ts with
  | LIMIT :: NUMBER offset :: COMMA :: NUMBER limit :: _ => (Some (number limit), ts)
  | _ => base_limit ts
  end.
(** compiler.py:71-85 *)
Definition parse_offset (ts : list token) : option E * list token :=
  match ts with
  | LIMIT :: NUMBER offset :: COMMA :: NUMBER limit :: rest => (Some (number offset), rest)
  | _ => base_offset ts
  end.
(** sqlglot's query modifiers: the limit is parsed, then the offset. *)
Definition limit_and_offset (ts : list token) : option E * option E * list token :=
  let (l, ts) := parse_limit false ts in let (o, ts) := parse_offset ts in (l, o, ts).
End Limit.

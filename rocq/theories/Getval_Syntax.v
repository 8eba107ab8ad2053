(** GET_VALUE(e, key, ...). *)
From Verif Require Import Base.
Section Syntax.
Variable V : Type.
Definition grow := text -> V.
Inductive const :=
| Str (s : text) | Int (z : Z)
| Real (whole : Z)                                   (* a number with a point, by its integer part *)
| Bool (b : bool) | Null.
Inductive key :=
| Const (c : const)
| Tuple (l : list (option const))                    (* (c, c, ...); None: an item that is no constant *)
| Other.                                             (* a column, a call ... *)
Inductive gexpr :=
| Col (name : text)
| Expr (f : grow -> V)                               (* any other expression *)
| Get (e : gexpr) (keys : list key).                 (* GET_VALUE(e, keys) *)
End Syntax.
Arguments Col {V}. Arguments Expr {V}. Arguments Get {V}.

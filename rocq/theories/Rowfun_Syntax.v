(** Expressions of a select list with the functions of the rows already shown. *)
From Verif Require Import Base Assign_Syntax.
Section Syntax.
Variable V : Type.
Inductive rexpr :=
| RConst (v : V)
| RCol (name : text)
| RIndex                                             (* ROW_INDEX() *)
| RLast (e : rexpr)                                  (* ROW_LAST(e) *)
| RCall (f : text) (args : list rexpr)               (* functions and operators that compute all their operands *)
| RIf (c a b : rexpr)                                (* IF(c, a, b) *)
| RIfNull (a b : rexpr).                             (* IFNULL(a, b) *)
End Syntax.
Arguments RConst {V}. Arguments RCol {V}. Arguments RIndex {V}. Arguments RLast {V}. Arguments RCall {V}. Arguments RIf {V}. Arguments RIfNull {V}.

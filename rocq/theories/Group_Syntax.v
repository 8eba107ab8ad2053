(** Queries with aggregates as the parser hands them over: SELECT items AS names FROM t GROUP BY ... *)
From Verif Require Import Base PyVal Expr_Syntax.

Inductive aggfun := FCount | FSum | FMin | FMax | FAvg | FGroupConcat.
(** [f(DISTINCT arg)]; an argument None is the star of COUNT( * ). *)
Record aggregate := mkagg { a_fun : aggfun; a_distinct : bool; a_arg : option expr }.

(** An item of the select list.  An expression around aggregates is given as the expression with each aggregate
    replaced by a column of a new name, and the aggregate of each new name. *)
Inductive item :=
| IConst (v : val)
| ICol (name : text)
| ICalc (e : expr)
| IAgg (a : aggregate)
| IExpr (e : expr) (holes : list (text * aggregate)).

(** An item of GROUP BY: a column, with or without a table name before it, or another expression. *)
Inductive group_item := KeyCol (qualified : bool) (name : text) | KeyExp (e : expr).

Record query := mkquery { q_items : list (text * item); q_group : list group_item }.

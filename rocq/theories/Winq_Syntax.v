(** Queries with window functions as the parser hands them over: SELECT items AS names FROM t WINDOW ... *)
From Verif Require Import Base PyVal Expr_Syntax Group_Syntax.

(** The function before OVER: an aggregate, or a function called by its (lower-case) name, possibly with DISTINCT before its first argument. *)
Inductive wfun := WAgg (a : aggregate) | WNamed (name : text) (distinct : bool) (args : list expr).

(** ROWS BETWEEN [fst] rows PRECEDING (None: UNBOUNDED) AND [snd] rows FOLLOWING (None: UNBOUNDED; 0: CURRENT ROW). *)
Definition frame := (option nat * option nat)%type.
(** PARTITION BY ... ORDER BY ... (with DESC) and the frame, if one is written. *)
Record window := mkwindow { w_partition : list group_item; w_order : list (group_item * bool); w_frame : option frame }.
(** [f OVER name] or [f OVER (name ...)] when a name is given, else [f OVER ( ... )]. *)
Record wcall := mkwcall { w_fun : wfun; w_name : option text; w_inline : window }.

(** An item of the select list.  An expression around window functions is given as the expression with each of them replaced by a
    column of a new name, and the window function of each new name. *)
Inductive witem :=
| WConst (v : val)
| WCol (name : text)
| WCalc (e : expr)
| WWin (c : wcall)
| WExpr (e : expr) (holes : list (text * wcall)).

Record wquery := mkwquery { wq_items : list (text * witem); wq_windows : list (text * window) }.

(** A SELECT with aggregates over joined tables: FROM, the joins and WHERE ([query] of Joins_Syntax), and the other clauses ([statement] of
    Whole_Syntax, whose own WHERE is not used).  In the expressions of the select list, GROUP BY and HAVING a column is named as it is written,
    "table.column" or "column"; [KeyCol true n]: the column n of GROUP BY is written with its table. *)
From Verif Require Import Base PyVal Expr_Syntax Group_Syntax Whole_Syntax Joins_Syntax.

(** What is before and after the last dot of a name. *)
Fixpoint last_dot (n : text) : option (text * text) :=
  match n with
  | [] => None
  | c :: r => match last_dot r with
              | Some (a, b) => Some (c :: a, b)
              | None => if N.eqb c 46 then Some ([], r) else None
              end
  end.
Definition named (n : text) : col := match last_dot n with Some (tb, c) => Col (Some tb) c | None => Col None n end.

Record jgroup := JGroup { g_from : Joins_Syntax.query; g_rest : statement }.

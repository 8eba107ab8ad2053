(** Model of CAST of a column in ORDER BY: compiler.py:1951-1968 compile_order; in WHERE: Cast_Where, in GROUP BY: Group_Model.
    Elsewhere (1625-1632 and 1984-1995) a cast applies the filter to the value: a function of one argument. *)
From Coq Require Import SpecFloat.
From Verif Require Import Base PyVal Utils_Model Calc_Model Expr_Syntax Expr_Model Where_Model Having_Model Group_Syntax Group_Model Inner_Syntax Inner_Model
  Select_Model Whole_Syntax Cast_Syntax Cast_Where Whole_Model.
Open Scope Z_scope.

Section Cast.
Variable frepr : spec_float -> text.
Variable ident : val -> val -> bool.
Variable ext : text -> option (list val -> val).
Variable lib : text -> list val -> val.
Variable str_of : val -> text.
Variable pick : list row -> row.
Variable nested : text -> row -> val.
Variable raw : list (text * state) -> val.
Variable state_name : path -> text.
Variable other : expr -> res hcol.
Variable rematch : text -> val -> bool.
Variable leK : val -> val -> bool.

(** compiler.py:1936, 1951: the name by which an item of ORDER BY sorts.  Expressions other than columns are not modelled here. *)
Definition order_name (e : expr) : res text := match as_column e with Some n => Ok n | None => Err OtherError end.
Fixpoint order_names (l : list (expr * bool)) : res (list (text * bool)) :=
  match l with
  | [] => Ok []
  | (e, d) :: r => do n <- order_name e; do ns <- order_names r; Ok ((n, d) :: ns)
  end.
(** A statement with the clause ORDER BY [order] (st_order is not used). *)
Definition run_cast (st : statement) (order : list (expr * bool)) (table : list row) : res (list output) :=
  do names <- order_names order;
  run_statement frepr ident ext lib str_of pick nested raw state_name other rematch leK (with_order names st) table.
End Cast.

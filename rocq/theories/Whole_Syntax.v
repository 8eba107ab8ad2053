(** A SELECT statement over one table as the parser hands it over: SELECT e1 AS n1, ... FROM t WHERE ... GROUP BY ... HAVING ... ORDER BY n1 [DESC], ...
    LIMIT ... OFFSET ... *)
From Verif Require Import Base PyVal Expr_Syntax Group_Syntax.

Record statement := mkstatement {
  st_items : list (text * expr);
  st_where : option expr;
  st_group : list group_item;
  st_having : option expr;
  st_order : list (text * bool);                     (* a name, and whether it is followed by DESC *)
  st_limit : option Z;
  st_offset : option Z }.

Definition with_where (w : option expr) (st : statement) : statement :=
  mkstatement (st_items st) w (st_group st) (st_having st) (st_order st) (st_limit st) (st_offset st).
Definition with_order (o : list (text * bool)) (st : statement) : statement :=
  mkstatement (st_items st) (st_where st) (st_group st) (st_having st) o (st_limit st) (st_offset st).
Definition with_group (g : list group_item) (st : statement) : statement :=
  mkstatement (st_items st) (st_where st) g (st_having st) (st_order st) (st_limit st) (st_offset st).

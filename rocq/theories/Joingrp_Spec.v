(** What a SELECT with aggregates over joined tables returns: that of Whole_Spec over the one table made of the joined rows. *)
From Verif Require Import Base PyVal Expr_Syntax Expr_Spec Having_Spec Group_Syntax Group_Spec Inner_Syntax Inner_Spec Whole_Syntax Cast_Syntax Whole_Spec
  Joins_Syntax Joins_Spec Joingrp_Syntax.

Section Spec.
Variable cmpv : cmp -> val -> val -> bool.
Variable p : text.                                     (* the first FROM table *)

(** A combination of rows read as a row with the columns "table.column" and, of the first table, "column". *)
Definition view (e : env) (n : text) : val := cval p e (named n).
(** The joined rows that WHERE keeps. *)
Definition joined (d : db) (q : Joins_Syntax.query) : list (text -> val) := map view (sql_query cmpv p d q).

(** [c] is the column [n] of the first table. *)
Definition is_first (c : col) (n : text) : Prop := cname c = n /\ (ctab c = None \/ ctab c = Some p).
(** The columns of WHERE and of the ON conditions. *)
Definition condition_column (q : Joins_Syntax.query) (c : col) : Prop :=
  (exists a, In a (qwhere q) /\ In c (acols a)) \/ (exists j a, In j (qjoins q) /\ In a (jon j) /\ In c (acols a)).
(** The column [n] of the first table is used: in an item, in WHERE or ON, inside a calculation of HAVING or GROUP BY. *)
Definition used_first (g : jgroup) (n : text) : Prop :=
  (exists m, used (g_rest g) m /\ is_first (named m) n) \/ (exists c, condition_column (g_from g) c /\ is_first c n).

(** The table [tb] is read by the select list or by GROUP BY. *)
Definition column_of_key (k : group_item) (n : text) : Prop := match k with KeyCol _ m => n = m | KeyExp e => mentions n e end.
Definition read_by (st : statement) (tb : text) : Prop :=
  exists m, ctab (named m) = Some tb /\
    ((exists n e, In (n, e) (st_items st) /\ mentions m e) \/ (exists k, In k (st_group st) /\ column_of_key k m)).

(** As [grouped_statement] of Whole_Spec: the names in ORDER BY are items: aggregates, columns of the first table that are in GROUP BY, under their own name,
    or other items under names which are not used columns of the first table.  No item has a name with a dot. *)
Definition grouped_over (g : jgroup) : Prop :=
  let st := g_rest g in
  st_where st = None /\ plain_written (mkwritten (st_items st) (st_group st)) /\ plain_having st /\ plain_limit (st_limit st) /\
  (forall n, In n (map fst (st_items st)) -> last_dot n = None) /\
  Forall (fun nd => exists e, In (fst nd, e) (st_items st) /\
    ((exists m b, e = ECol m /\ is_first (named m) (fst nd) /\ In (KeyCol b m) (st_group st)) \/ uses_aggregate e \/ ~ used_first g (fst nd))) (st_order st).
End Spec.

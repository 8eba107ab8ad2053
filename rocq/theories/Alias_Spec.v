(** What the four kinds of SELECT over one source return, and for which of them the claims are made: of a table without alias (Whole_Spec, Collapse_Spec), or of
    a table with an alias, or a query with a name. *)
From Verif Require Import Base PyVal Expr_Syntax Expr_Spec Having_Spec Agg_Spec Reduce_Spec Group_Syntax Inner_Syntax Inner_Spec Select_Spec Whole_Syntax Cast_Syntax Whole_Spec Collapse_Spec.

Section Meaning.
Variable tt : text -> bool.
Variable fn : text -> list val -> val.
Variable str_of : val -> text.
Variable leK : val -> val -> bool.
Variable same : list val -> list val -> bool.
Variable reserved : text -> Prop.                      (* names the users do not write *)
Notation rows := (list (list (text * val))).

Definition aggregates (st : statement) : Prop := exists n e, In (n, e) (st_items st) /\ uses_aggregate e.
Inductive answers : bool -> statement -> list (text -> val) -> rows -> Prop :=
| A_plain st table out : ~ aggregates st -> st_group st = [] -> plain_result tt fn leK st table out -> answers false st table out
| A_grouped st table out : aggregates st -> grouped_result tt fn str_of leK same st table out -> answers false st table out
| A_bare st table out : ~ aggregates st -> st_group st <> [] -> collapsed_result tt fn leK same (bare_key tt fn st) st table out -> answers false st table out
| A_distinct st table out : ~ aggregates st -> st_group st = [] -> collapsed_result tt fn leK same (item_values tt fn st) st table out -> answers true st table out.

(** ORDER BY items of the select list, whatever their names. *)
Definition by_items (st : statement) : Prop := Forall (fun nd => In (fst nd) (map fst (st_items st))) (st_order st).
Definition free_items (st : statement) : Prop :=
  NoDup (map fst (st_items st)) /\
  Forall (fun ne => exact (snd ne) /\ ~ uses_aggregate (snd ne) /\ forall v, snd ne <> ENeg (EConst v)) (st_items st).
Definition clauses (st : statement) : Prop := plain_where tt fn (st_where st) /\ plain_having st /\ plain_limit (st_limit st).
Definition unreserved (st : statement) : Prop := forall n m e, reserved n -> In (m, e) (st_items st) -> ~ mentions n e.
(** GROUP BY without aggregates: a CAST of a column is not one of a column with the name of an item. *)
Definition bare_items (st : statement) : Prop :=
  Forall (fun k => match k with
                   | KeyCol _ _ => True
                   | KeyExp e => exact e /\ forall n, cast_column e = Some n -> ~ In n (map fst (st_items st))
                   end) (st_group st).
(** A LIMIT only together with a HAVING or an ORDER BY. *)
Definition late_limit (st : statement) : Prop := st_limit st = None \/ st_having st <> None \/ st_order st <> [].

Inductive acceptable : option text -> bool -> statement -> list (text -> val) -> Prop :=
| P_plain st table : plain_statement tt fn st -> acceptable None false st table
| P_grouped st table : grouped_statement tt fn st -> unreserved st -> summable_groups tt fn same st table -> acceptable None false st table
| P_bare st table : bare_group_statement tt fn st -> proper_keys tt fn same (bare_key tt fn st) st table -> acceptable None false st table
| P_distinct st table : distinct_statement tt fn st -> proper_keys tt fn same (item_values tt fn st) st table -> acceptable None true st table
| Q_plain a st table : a <> [] -> free_items st -> st_group st = [] -> clauses st -> by_items st -> acceptable (Some a) false st table
| Q_grouped a st table : a <> [] -> plain_written (mkwritten (st_items st) (st_group st)) -> clauses st -> by_items st ->
    unreserved st -> summable_groups tt fn same st table -> acceptable (Some a) false st table
| Q_bare a st table : a <> [] -> st_items st <> [] -> free_items st -> st_group st <> [] -> bare_items st -> clauses st -> by_items st -> late_limit st ->
    proper_keys tt fn same (bare_key tt fn st) st table -> acceptable (Some a) false st table
| Q_distinct a st table : a <> [] -> st_items st <> [] -> free_items st -> st_group st = [] -> clauses st -> by_items st -> late_limit st ->
    proper_keys tt fn same (item_values tt fn st) st table -> acceptable (Some a) true st table.
End Meaning.

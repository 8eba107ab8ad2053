(** What a query returns, independent of the compiler. *)
From Verif Require Import Base PyVal Expr_Syntax Expr_Spec Having_Spec Agg_Spec Reduce_Spec Group_Syntax Inner_Syntax Inner_Spec Select_Spec Whole_Syntax Whole_Spec
  Cast_Syntax Collapse_Spec Alias_Spec Full_Syntax.

Section Meaning.
Variable tt : text -> bool.
Variable fn : text -> list val -> val.
Variable str_of : val -> text.
Variable leK : val -> val -> bool.
Variable same : list val -> list val -> bool.
Variable reserved : text -> Prop.                      (* names the users do not write *)
Notation rows := (list (list (text * val))).
Notation tables := (text -> rows).

(** The rows a query may return when the tables have the rows [tb]. *)
Fixpoint means (tb : tables) (q : query) (out : rows) {struct q} : Prop :=
  match q with
  | Select d star st from =>
    exists l, match from with Nothing => l = [[]] | Table n _ => l = tb n | Sub q _ => means tb q l end /\
              answers tt fn str_of leK same d (starred star from st) (map column l) out
  | UnionAll a b => exists x y, means tb a x /\ means tb b y /\ out = x ++ y
  end.
(** The queries for which the claim is made: each SELECT is of the form the claims are made for, whatever rows its source returns; a star is for the columns of a
    query; the SELECTs of a UNION ALL have the same names. *)
Fixpoint proper (tb : tables) (q : query) {struct q} : Prop :=
  match q with
  | Select d star st from =>
    match from with Nothing => star = false | Table _ _ => star = false | Sub q _ => proper tb q end /\
    forall l, match from with Nothing => l = [[]] | Table n _ => l = tb n | Sub q _ => means tb q l end ->
              acceptable tt fn same reserved (source_alias from) d (starred star from st) (map column l)
  | UnionAll a b => proper tb a /\ proper tb b /\ query_names a = query_names b
  end.

(** WITH name AS (query), ...: each name is a table with the rows of its query, in which the names before it may be used. *)
Definition define (tb : tables) (name : text) (l : rows) : tables := fun n => if text_eqb n (memory_table name) then l else tb n.
Fixpoint with_means (tb : tables) (ctes : list (text * query)) (q : query) (out : rows) : Prop :=
  match ctes with
  | [] => means tb q out
  | (name, q') :: r => exists l, means tb q' l /\ with_means (define tb name l) r q out
  end.
Fixpoint with_proper (tb : tables) (ctes : list (text * query)) (q : query) : Prop :=
  match ctes with
  | [] => proper tb q
  | (name, q') :: r => proper tb q' /\ forall l, means tb q' l -> with_proper (define tb name l) r q
  end.
End Meaning.

(** Which WHERE clauses the pushdown theorems speak about (syntax and SQL semantics only). *)
From Verif Require Import Base PyVal Expr_Syntax Expr_Spec.

(** The conditions joined by AND at the top of the clause. *)
Inductive top_level (P : expr -> Prop) : expr -> Prop :=
| T_and a b : top_level P a -> top_level P b -> top_level P (EAnd a b)
| T_paren a : top_level P a -> top_level P (EParen a)
| T_leaf e : (forall a b, e <> EAnd a b) -> (forall a, e <> EParen a) -> P e -> top_level P e.

(** A comparison does not have a column on its right-hand side only. *)
Definition column_left (e : expr) : Prop :=
  forall k a n, e = EBin k a (ECol n) -> exists m, a = ECol m.
(** The items of [column IN (...)] do not depend on the row. *)
Definition constant_items (value : (text -> val) -> expr -> val) (e : expr) : Prop :=
  forall n l, e = EIn (ECol n) l -> forall y, In y l -> forall row row', value row y = value row' y.

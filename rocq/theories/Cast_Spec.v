(** The conditions in which CAST of a column has no effect. *)
From Verif Require Import Base PyVal Expr_Syntax Expr_Spec Having_Spec Cast_Syntax.

Definition without_columns (e : expr) : Prop := forall n, ~ mentions n e.
(** A comparison or IN with CAST of a column on one side and no columns on the other. *)
Inductive cast_compared : expr -> Prop :=
| CC_left k c b n : comparison_op k = true -> cast_column c = Some n -> without_columns b -> cast_compared (EBin k c b)
| CC_right k a c n : comparison_op k = true -> cast_column c = Some n -> without_columns a -> cast_compared (EBin k a c)
| CC_in c l n : cast_column c = Some n -> cast_compared (EIn c l).

(** [uncast e e']: e' is e with the column alone in the place of CAST(column AS type), in such conditions joined by AND at the top. *)
Inductive uncast : expr -> expr -> Prop :=
| U_and a b a' b' : uncast a a' -> uncast b b' -> uncast (EAnd a b) (EAnd a' b')
| U_paren a a' : uncast a a' -> uncast (EParen a) (EParen a')
| U_left k c b n : comparison_op k = true -> cast_column c = Some n -> without_columns b -> uncast (EBin k c b) (EBin k (ECol n) b)
| U_right k a c n : comparison_op k = true -> cast_column c = Some n -> without_columns a -> uncast (EBin k a c) (EBin k a (ECol n))
| U_in c l n : cast_column c = Some n -> uncast (EIn c l) (EIn (ECol n) l)
| U_same e : (forall a b, e <> EAnd a b) -> (forall a, e <> EParen a) -> ~ cast_compared e -> uncast e e.

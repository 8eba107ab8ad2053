(** HAVING, written independently of the compiler. *)
From Verif Require Import Base PyVal Expr_Syntax Expr_Spec.

(** The conditions the theorems speak about: comparisons, IN, IS and NOT of exact operands, joined by AND and OR. *)
Inductive hcond : expr -> Prop :=
| HC_and a b : hcond a -> hcond b -> hcond (EAnd a b)
| HC_or a b : hcond a -> hcond b -> hcond (EOr a b)
| HC_paren a : hcond a -> hcond (EParen a)
| HC_cmp k a b : comparison_op k = true -> exact a -> exact b -> hcond (EBin k a b)
| HC_is a b : exact a -> exact b -> hcond (EIs a b)
| HC_in a l : exact a -> l <> [] -> Forall exact l -> hcond (EIn a l)
| HC_not a : exact a -> boolean a -> hcond (ENot a).

(** [mentions n e]: the column named [n] is written somewhere in [e]. *)
Inductive mentions (n : text) : expr -> Prop :=
| M_col : mentions n (ECol n)
| M_paren a : mentions n a -> mentions n (EParen a)
| M_neg a : mentions n a -> mentions n (ENeg a)
| M_not a : mentions n a -> mentions n (ENot a)
| M_and a b : mentions n a \/ mentions n b -> mentions n (EAnd a b)
| M_or a b : mentions n a \/ mentions n b -> mentions n (EOr a b)
| M_is a b : mentions n a \/ mentions n b -> mentions n (EIs a b)
| M_bin k a b : mentions n a \/ mentions n b -> mentions n (EBin k a b)
| M_in a l : mentions n a \/ (exists x, In x l /\ mentions n x) -> mentions n (EIn a l)
| M_between a b c : mentions n a \/ mentions n b \/ mentions n c -> mentions n (EBetween a b c)
| M_if a b : mentions n a \/ mentions n b -> mentions n (EIf a b None)
| M_if_else a b c : mentions n a \/ mentions n b \/ mentions n c -> mentions n (EIf a b (Some c))
| M_ifnull a b : mentions n a \/ mentions n b -> mentions n (EIfNull a b)
| M_coalesce a l : mentions n a \/ (exists x, In x l /\ mentions n x) -> mentions n (ECoalesce a l)
| M_case_of e ifs els : mentions n e -> mentions n (ECase (Some e) ifs els)
| M_case_when o ifs els w x : In (w, x) ifs -> mentions n w \/ mentions n x -> mentions n (ECase o ifs els)
| M_case_else o ifs e : mentions n e -> mentions n (ECase o ifs (Some e))
| M_fun k l x : In x l -> mentions n x -> mentions n (EFun k l).

(** Characters without a meaning of their own in a regular expression. *)
Definition plain (c : N) : bool :=
  ((48 <=? c) && (c <=? 57) || (65 <=? c) && (c <=? 90) || (97 <=? c) && (c <=? 122) || (c =? 32) || (c =? 45))%N || (128 <=? c)%N.

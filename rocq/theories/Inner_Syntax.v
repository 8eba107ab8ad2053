(** Aggregate calls inside expressions, as the parser hands them over.  In [expr] the call f(x) of an aggregate is the node [EFun] named like f
    with the argument x, f( * ) is the node without arguments, and f(DISTINCT x) is written with the name "f distinct". *)
From Verif Require Import Base PyVal Expr_Syntax Group_Syntax.

Definition aggregate_names : list (text * (aggfun * bool)) :=
  [(t "count", (FCount, false)); (t "sum", (FSum, false)); (t "min", (FMin, false)); (t "max", (FMax, false)); (t "avg", (FAvg, false));
   (t "groupconcat", (FGroupConcat, false));
   (t "count distinct", (FCount, true)); (t "sum distinct", (FSum, true)); (t "min distinct", (FMin, true)); (t "max distinct", (FMax, true));
   (t "avg distinct", (FAvg, true)); (t "groupconcat distinct", (FGroupConcat, true))].

(** The aggregate a node is, if it is one. *)
Definition as_aggregate (e : expr) : option aggregate :=
  match e with
  | EFun k args =>
    match assoc k aggregate_names, args with
    | Some (f, d), [x] => Some (mkagg f d (Some x))
    | Some (f, false), [] => Some (mkagg f false None)
    | _, _ => None
    end
  | _ => None
  end.

(** SELECT e1 AS n1, e2 AS n2, ... FROM t GROUP BY ... *)
Record written := mkwritten { w_items : list (text * expr); w_group : list group_item }.

(** SELECT ... GROUP BY with aggregates, independent of the compiler. *)
From Verif Require Import Base PyVal Utils_Model Calc_Model Expr_Syntax Expr_Spec Agg_Spec Having_Spec Group_Syntax Cast_Syntax.
Open Scope Z_scope.

Section Spec.
Variable str_of : val -> text.
(** The value of an aggregate over the values [xs] of its argument on the rows of a group.  [star]: COUNT( * ). *)
Inductive aggregate_value : aggfun -> bool -> list val -> val -> Prop :=
| A_count xs : aggregate_value FCount false xs (VInt (Z.of_nat (length (nonnull xs))))
| A_count_distinct xs reps : distinct_values (nonnull xs) reps -> aggregate_value FCount true xs (VInt (Z.of_nat (length reps)))
| A_sum xs z : nonnull xs <> [] -> sums xs z -> aggregate_value FSum false xs (VInt z)
| A_min xs m : least_of xs m -> aggregate_value FMin false xs m
| A_max xs m : greatest_of xs m -> aggregate_value FMax false xs m
| A_avg xs z v : nonnull xs <> [] -> sums xs z -> py_div (VInt z) (VInt (Z.of_nat (length (nonnull xs)))) = Ok v ->
    aggregate_value FAvg false xs v
| A_concat xs s : nonnull xs <> [] -> comma_list (map str_of (nonnull xs)) s -> aggregate_value FGroupConcat false xs (VStr s).

(** Values on which the aggregates are claimed: sums of integers, averages without NULL, comparable values for MIN and MAX, not only NULLs. *)
Definition summable (f : aggfun) (distinct : bool) (xs : list val) : Prop :=
  match f, distinct with
  | FCount, false => True
  | FCount, true => forall x, In x (nonnull xs) -> pyeq x x = true
  | FSum, false => nonnull xs <> [] /\ exists z, sums xs z
  | FMin, false | FMax, false => comparable (nonnull xs)
  | FAvg, false => ~ In VNone xs /\ exists z v, sums xs z /\ py_div (VInt z) (VInt (Z.of_nat (length (nonnull xs)))) = Ok v
  | FGroupConcat, false => nonnull xs <> []
  | _, true => False
  end.

Variable value : (text -> val) -> expr -> val.       (* the SQL value of an expression on a row: Expr_Spec.sem *)
Variable same : list val -> list val -> bool.        (* equality of group keys *)

Definition group_value (r : text -> val) (k : group_item) : val :=
  match k with KeyCol _ n => r n | KeyExp e => value r e end.
Definition group_key (q : query) (r : text -> val) : list val := map (group_value r) (q_group q).

(** The argument of an aggregate on the rows of a group; the star is never NULL. *)
Definition argument (a : aggregate) (rows : list (text -> val)) : list val :=
  map (fun r => match a_arg a with None => VInt 0 | Some e => value r e end) rows.

(** [v] is the value of an item for the group [rows], its plain columns being read from the row [r]. *)
Inductive item_value (rows : list (text -> val)) (r : text -> val) : item -> val -> Prop :=
| V_const v : item_value rows r (IConst v) v
| V_col n : item_value rows r (ICol n) (r n)
| V_calc e : item_value rows r (ICalc e) (value r e)
| V_agg a v : aggregate_value (a_fun a) (a_distinct a) (argument a rows) v -> item_value rows r (IAgg a) v
| V_expr e holes vs :
    Forall2 (fun h v => fst v = fst h /\ aggregate_value (a_fun (snd h)) (a_distinct (snd h)) (argument (snd h) rows) (snd v)) holes vs ->
    item_value rows r (IExpr e holes) (value (fun n => match assoc n vs with Some v => v | None => r n end) e).

(** The aggregates of an item. *)
Definition aggregates (i : item) : list aggregate :=
  match i with IAgg a => [a] | IExpr _ holes => map snd holes | _ => [] end.
End Spec.


(** ** The queries for which the claim is made *)
(** DISTINCT only in COUNT; the star only in COUNT; the argument an expression of the class [exact]. *)
Definition plain_aggregate (a : aggregate) : Prop :=
  (a_distinct a = true -> a_fun a = FCount) /\ (a_arg a = None -> a_fun a = FCount /\ a_distinct a = false) /\
  (forall e, a_arg a = Some e -> exact e).
(** A column of GROUP BY without table name, when it is also the name of an item, names the column shown by that item; with CAST of a column there is no item
    of the name of the column. *)
Definition plain_key (items : list (text * item)) (k : group_item) : Prop :=
  match k with
  | KeyCol true _ => True
  | KeyCol false n => forall i, In (n, i) items -> i = ICol n
  | KeyExp e => exact e /\ forall n, cast_column e = Some n -> ~ In n (map fst items)
  end.
(** An expression around aggregates may use, beside the aggregates, only columns which are items under their own name. *)
Definition plain_item (items : list (text * item)) (i : item) : Prop :=
  match i with
  | IConst _ | ICol _ => True
  | ICalc e => exact e
  | IAgg a => plain_aggregate a
  | IExpr e holes => exact e /\ holes <> [] /\ NoDup (map fst holes) /\ Forall (fun h => plain_aggregate (snd h)) holes /\
      (forall n, mentions n e -> In n (map fst holes) \/ In (n, ICol n) items)
  end.
Definition plain_query (q : query) : Prop :=
  NoDup (map fst (q_items q)) /\ Forall (plain_key (q_items q)) (q_group q) /\ Forall (fun ai => plain_item (q_items q) (snd ai)) (q_items q) /\
  (exists alias i, In (alias, i) (q_items q) /\ aggregates i <> []).

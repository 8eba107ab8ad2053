(** What the aggregates are supposed to compute, independent of how (no reference to Agg_Model). *)
From Verif Require Import Base PyVal Utils_Model.
Open Scope Z_scope.

(** The values of a group that are not NULL. *)
Definition nonnull (xs : list val) : list val :=
  filter (fun v => match v with VNone => false | _ => true end) xs.

(** v is a value whose numeric coercion is the integer n (utils.ensure_number; see C09). *)
Definition denotes (v : val) (n : Z) : Prop := ensure_number v = Ok (VInt n).

(** z is the sum of the non-NULL values, all of which denote integers. *)
Inductive sums : list val -> Z -> Prop :=
| sums_nil : sums [] 0
| sums_null : forall l z, sums l z -> sums (VNone :: l) z
| sums_cons : forall v n l z, denotes v n -> sums l z -> sums (v :: l) (n + z).

(** Any two values have an order. *)
Definition comparable (xs : list val) : Prop :=
  forall x y, In x xs -> In y xs -> exists c, pycmp x y = Ok (Some c).
(** a <= b *)
Definition le (a b : val) : Prop := exists c, pycmp a b = Ok (Some c) /\ c <> Gt.

(** m is a greatest (least) non-NULL value; NULL when there is none. *)
Definition greatest_of (xs : list val) (m : val) : Prop :=
  (nonnull xs = [] /\ m = VNone) \/ (In m (nonnull xs) /\ forall y, In y (nonnull xs) -> le y m).
Definition least_of (xs : list val) (m : val) : Prop :=
  (nonnull xs = [] /\ m = VNone) \/ (In m (nonnull xs) /\ forall y, In y (nonnull xs) -> le m y).

(** reps lists the distinct values of xs: no two equal, each from xs, each value of xs equal to one. *)
Definition distinct_values (xs reps : list val) : Prop :=
  ForallOrdPairs (fun a b => pyeq a b = false) reps /\
  (forall r, In r reps -> In r xs) /\
  (forall x, In x xs -> exists r, In r reps /\ pyeq r x = true).

(** Batch invariance of an aggregate given by a fold [run_] of its step, on groups satisfying D:
    aggregating a group in two parts and merging the two states gives the state of the whole group. *)
Definition batch_invariant {V S} (agg : list V -> res S) (red : S -> S -> res S) (D : list V -> Prop) : Prop :=
  forall xs ys, D (xs ++ ys) ->
  exists a b c, agg xs = Ok a /\ agg ys = Ok b /\ red a b = Ok c /\ agg (xs ++ ys) = Ok c.

(** [s] is the texts of [l] with one comma between neighbours. *)
Inductive comma_list : list text -> text -> Prop :=
| cl_none : comma_list [] []
| cl_one : forall a, comma_list [a] a
| cl_more : forall a b l s, comma_list (b :: l) s -> comma_list (a :: b :: l) (a ++ [44%N] ++ s).

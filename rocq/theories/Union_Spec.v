(** What UNION, UNION ALL, EXCEPT and INTERSECT mean, independently of the compiler.
    The result of a SELECT is its column names and its rows, each a list of values in the order of the names. *)
From Verif Require Import Base.

Record table (V : Type) := mktable { names : list text; rows : list (list V) }.
Arguments mktable {V}. Arguments names {V}. Arguments rows {V}.

(** UNION ALL: the rows of all branches, one branch after another, under the names of the first. *)
Definition union_all {V} (l : list (table V)) : table V :=
  mktable (match l with [] => [] | t :: _ => names t end) (flat_map rows l).

(** The value under name [n] of a row. *)
Definition value {V} (ns : list text) (n : text) (row : list V) : option V := assoc n (combine ns row).

(** A row with its names attached. *)
Definition labelled {V} (t : table V) : list (list (text * V)) := map (combine (names t)) (rows t).

(** UNION: no row appears twice, and a row appears iff it appears in a branch. *)
Definition is_union {V} (l : list (table V)) (result : table V) : Prop :=
  NoDup (rows result) /\ forall r, In r (rows result) <-> exists t, In t l /\ In r (rows t).
Definition is_except {V} (a b result : table V) : Prop :=
  forall r, In r (rows result) <-> In r (rows a) /\ ~ In r (rows b).
Definition is_intersect {V} (a b result : table V) : Prop :=
  forall r, In r (rows result) <-> In r (rows a) /\ In r (rows b).

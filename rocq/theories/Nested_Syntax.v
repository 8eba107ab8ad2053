(** What the run of a query does, as far as subqueries in its expressions matter. *)
From Verif Require Import Base.

Section Syntax.
Variables V R : Type.                                (* values, rows *)
(** The conditions handed to a subquery: for each operator, pairs of a name and a value; a name can be missing. *)
Definition filters := list (text * list (option text * V)).
Inductive prog :=
| Done
| Fail
| Emit (r : R) (p : prog)                            (* a row of the result *)
| Get (x : text) (k : V -> prog)                     (* reads @x *)
| Put (x : text) (v : V) (p : prog)                  (* @x := v *)
| Sub (fs : filters) (body : prog) (k : list R -> prog).   (* runs a subquery and goes on with its rows *)
End Syntax.
Arguments Done {V R}. Arguments Fail {V R}. Arguments Emit {V R}. Arguments Get {V R}. Arguments Put {V R}. Arguments Sub {V R}.

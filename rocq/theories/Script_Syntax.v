(** Scripts: statements executed one after the other. *)
From Verif Require Import Base PyVal Expr_Syntax Full_Syntax.

Inductive command :=
| Show (ctes : list (text * query)) (q : query)                              (* WITH ... SELECT ... *)
| InsertQuery (table : text) (ctes : list (text * query)) (q : query)        (* WITH ... INSERT INTO table SELECT ... *)
| InsertRows (table : text) (names : list text) (tuples : list (list val))   (* INSERT INTO table (names) VALUES (...), ... *)
| DeleteFrom (table : text) (w : option expr).                               (* DELETE FROM table WHERE ... *)

(** The names a command defines by WITH, the tables it writes, and those it reads. *)
Definition with_part (c : command) : list (text * query) := match c with Show ctes _ | InsertQuery _ ctes _ => ctes | _ => [] end.
Definition with_names (c : command) : list text := map fst (with_part c).
Definition writes (n : text) (c : command) : Prop :=
  match c with Show _ _ => False | InsertQuery m _ _ | InsertRows m _ _ | DeleteFrom m _ => n = m end.
Definition command_reads (n : text) (c : command) : Prop :=
  match c with
  | Show ctes q | InsertQuery _ ctes q => reads n q \/ exists name q', In (name, q') ctes /\ reads n q'
  | _ => False
  end.

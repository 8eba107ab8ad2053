(** WITH name AS (query), ... query: independent of the compiler. *)
From Verif Require Import Base.

Section Spec.
Variable Row : Type.
(** What a query computes from the rows of its sources, the first of FROM, then those of the joins: tables, given by their
    name with the database before it, or queries in parentheses.  A table without a database is in the memory database "--". *)
Inductive query := Query (f : list (list Row) -> list Row) (sources : list (text + query)).
Definition memory_table (name : text) : text := t "--." ++ name.

(** The rows of a query, the tables having the rows [tables]. *)
Fixpoint rows (tables : text -> list Row) (q : query) : list Row :=
  match q with
  | Query f sources => f (map (fun s => match s with inl n => tables n | inr q => rows tables q end) sources)
  end.

(** The tables seen by what follows WITH: each name is the rows of its query, computed with the names before it. *)
Fixpoint with_tables (tables : text -> list Row) (ctes : list (text * query)) : text -> list Row :=
  match ctes with
  | [] => tables
  | (name, q) :: r => with_tables (fun n => if text_eqb n (memory_table name) then rows tables q else tables n) r
  end.
Definition with_rows (tables : text -> list Row) (ctes : list (text * query)) (q : query) : list Row :=
  rows (with_tables tables ctes) q.

(** The tables read by a query, in its own sources or those of its subqueries. *)
Inductive reads (n : text) : query -> Prop :=
| R_table f sources : In (inl n) sources -> reads n (Query f sources)
| R_query f sources q : In (inr q) sources -> reads n q -> reads n (Query f sources).
End Spec.
Arguments Query {Row}.

(** A reference to a table as the SQL parser gives it. *)
From Verif Require Import Base.

Inductive dotted := Part (n : text) | Dots (a b : dotted).
Inductive table_name := Named (n : text) | Path (a b : dotted) | FromVariable (x : text).
Record reference := mkref { r_catalog : option text; r_db : option text; r_this : table_name; r_alias : option text }.
(** A database of a statement: its settings. *)
Definition database := list (text * text).
(** Where a query of INSERT comes from. *)
Inductive rows_from := FromValues | FromSelect (keys : list text) | FromUnion (keys : list (list text)).

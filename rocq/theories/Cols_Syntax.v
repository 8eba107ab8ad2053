(** The select list and the FROM clause as the user writes them, shared by the model and the specification of the result's columns.
    No code of /repo is modelled here. *)
From Verif Require Import Base.

Section Syntax.
(** An item that is not a plain column: a constant, an expression or an aggregate. *)
Variable E : Type.

Inductive kind := KConst | KCalc | KAgg.

(** [ICol alias q name marked]: column [name] of the table called [q], with AS [alias]; [marked]: it carries the option <pk>. *)
Inductive item :=
| IAll
| IAllOf (q : text)
| ICol (alias : option text) (q : option text) (name : text) (marked : bool)
| IExp (alias : option text) (k : kind) (e : E).

(** FROM origin [AS alias] JOIN ...: [f_cols] are the columns of the table when it is a subquery whose columns are listed,
    [f_joins] the joined tables by the names they go by, each with its columns when they are listed. *)
Record from := { f_alias : option text; f_origin : text; f_cols : option (list text);
                 f_joins : list (text * option (list text)) }.

(** What a column of the result is computed from. *)
Inductive source := SCol (table : text) (name : text) | SExp (e : E).

(** The columns of the result: all those of the source rows, or a list. *)
Inductive columns := Everything | Listed (l : list (text * source)).
End Syntax.
Arguments IAll {E}.
Arguments IAllOf {E} q.
Arguments ICol {E} alias q name marked.
Arguments SCol {E} table name.
Arguments Everything {E}.
Arguments Listed {E} l.
Arguments IExp {E} alias k e.
Arguments SExp {E} e.

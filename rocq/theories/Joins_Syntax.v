(** The part of a query that the join rewrites look at: FROM tables, joins with their ON conditions, and
    the WHERE condition.  Conditions are conjunctions, given as the list of their conjuncts. *)
From Verif Require Import Base PyVal.

(** A column, with its table name when it is qualified. *)
Record col := Col { ctab : option text; cname : text }.

(** One side of a comparison: a column, or an expression that reads [cols] and computes [f] of them
    (a constant when [cols] is empty). *)
Inductive operand := OCol (c : col) | OExpr (cols : list col) (f : list val -> val).

Inductive cmp := CEq | CNe | CLt | CLe | CGt | CGe.

(** A conjunct: a comparison, [x IN (constants)], or any other condition (OR, NOT, LIKE, IS NULL, ...)
    that reads [cols]. [f] tells when it is true. *)
Inductive atom :=
| ACmp (o : cmp) (l r : operand)
| AIn (l : operand) (f : val -> bool)
| AOther (cols : list col) (f : list val -> bool).

(** LEFT / RIGHT / FULL and INNER / CROSS / OUTER, as the parser reports them. *)
Inductive side := SNone | SLeft | SRight | SFull.
Inductive kind := KNone | KInner | KCross | KOuter.

Record join := Join { jtab : text; jside : side; jkind : kind; jon : list atom }.
Record query := Query { qfrom : list text; qjoins : list join; qwhere : list atom }.

Definition row := list (text * val).
Definition db := text -> list row.

(** The rows chosen for each table; [None]: the table is null-extended. *)
Definition env := list (text * option row).

(** What a column of joined tables should read. *)
From Verif Require Import Base PyVal Joins_Syntax Joins_Spec.

Section Spec.
Variable p : text.                         (* the FROM table *)
Variable js : list join.                   (* the joins of the query *)

(** The ON of [j] reads table [tb]. *)
Definition on_reads (j : join) (tb : text) : Prop := exists a c, In a (jon j) /\ In c (acols a) /\ ctab c = Some tb.

(** The joined tables that the value of [e] depends on: those it reads, and those that their ON conditions read. *)
Inductive needed (e : operand) : text -> Prop :=
| needed_read : forall c tb, In c (ocols e) -> ctab c = Some tb -> tb <> p -> needed e tb
| needed_on : forall j tb, In j js -> needed e (jtab j) -> on_reads j tb -> tb <> p -> tb <> jtab j -> needed e tb.

(** [ts] is an order to join just these tables in: each once, and after all tables that its ON reads. *)
Definition joining_order (e : operand) (ts : list join) : Prop :=
  NoDup (map jtab ts) /\ (forall j, In j ts -> In j js) /\
  (forall tb, In tb (map jtab ts) <-> needed e tb) /\
  (forall l1 j l2, ts = l1 ++ j :: l2 -> forall tb, on_reads j tb -> tb = p \/ tb = jtab j \/ In tb (map jtab l1)).
End Spec.

(** The values of [e] for a row [r] of the FROM table, one for each combination of rows that joining the tables [ts] to [r] by LEFT JOINs gives. *)
Definition joined_rows (cmpv : cmp -> val -> val -> bool) (p : text) (d : db) (ts : list join) (r : row) : list env :=
  fold_left (fun es j => left_join cmpv p d (jtab j) (jon j) es) ts [[(p, Some r)]].

(** A comparison in ON whose left side is a computed value reads, on its right side, only the joined table and the FROM table. *)
Definition right_side_plain (p T : text) (a : atom) : Prop :=
  match a with
  | ACmp _ (OExpr _ _) r => forall c tb, In c (ocols r) -> ctab c = Some tb -> tb = p \/ tb = T
  | _ => True
  end.

(** Some order of the names, each once. *)
Definition some_order (ord : list text -> list text) : Prop :=
  forall l, NoDup (ord l) /\ forall x, In x (ord l) <-> In x l.

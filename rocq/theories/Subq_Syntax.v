(** Subqueries inside expressions (scalar subqueries and EXISTS) that may refer to the row of the outer query. *)
From Verif Require Import Base.

(** A column: the table written before it, its name, the type written after it (t.a[int]). *)
Record column := { c_table : option text; c_name : text; c_type : option text }.

Section Syntax.
Variable V : Type.
Inductive expr :=
| Col (c : column)
| Lit (v : V)
| App (f : text) (args : list expr)
| And (a b : expr)
| Eq (a b : expr).

Section Ind.
Variable P : expr -> Prop.
Hypothesis HC : forall c, P (Col c).
Hypothesis HL : forall v, P (Lit v).
Hypothesis HA : forall f args, Forall P args -> P (App f args).
Hypothesis HN : forall a b, P a -> P b -> P (And a b).
Hypothesis HE : forall a b, P a -> P b -> P (Eq a b).
Fixpoint expr_ind' (e : expr) : P e :=
  match e with
  | Col c => HC c
  | Lit v => HL v
  | App f args => HA f args ((fix go l : Forall P l := match l with [] => Forall_nil P | x :: r => Forall_cons x (expr_ind' x) (go r) end) args)
  | And a b => HN a b (expr_ind' a) (expr_ind' b)
  | Eq a b => HE a b (expr_ind' a) (expr_ind' b)
  end.
End Ind.

(** A row: what the columns hold, by table (or none) and name. *)
Definition row := option text -> text -> V.

(** What the subquery computes: an expression of each row, or an aggregate of each group. *)
Inductive kind := Plain (item : expr) | Aggregate (f : list row -> V) (group : list expr).
Record query := { q_tables : list text; q_where : option expr; q_kind : kind; q_limit : option nat }.

(** The functions of the language: application by name, AND, =, conversion to a type, and what counts as true. *)
Record lang := { l_app : text -> list V -> V; l_and : V -> V -> V; l_eq : V -> V -> V; l_conv : text -> V -> V; l_null : V; l_true : V -> bool }.

(** The value of an expression, given that of its columns. *)
Fixpoint ev (L : lang) (look : column -> V) (e : expr) : V :=
  match e with
  | Col c => look c
  | Lit v => v
  | App f args => l_app L f (map (ev L look) args)
  | And a b => l_and L (ev L look a) (ev L look b)
  | Eq a b => l_eq L (ev L look a) (ev L look b)
  end.
End Syntax.

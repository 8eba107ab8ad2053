(** Queries made of SELECT statements: a SELECT reads no table, one table, or a query in parentheses with a name; SELECT * stands for all columns of the
    query in parentheses, before the items of the statement; queries are put together by UNION ALL, and may be named by WITH. *)
From Verif Require Import Base PyVal Expr_Syntax Group_Syntax Whole_Syntax.

Inductive source (Q : Type) := Nothing | Table (name : text) (alias : option text) | Sub (q : Q) (alias : text).
Arguments Nothing {Q}. Arguments Table {Q}. Arguments Sub {Q}.
Inductive query := Select (distinct star : bool) (st : statement) (from : source query) | UnionAll (a b : query).

(** The names of the columns of the result: of the first SELECT of a UNION ALL. *)
Fixpoint query_names (q : query) : list text :=
  match q with
  | Select _ star st from =>
    (if star : bool then match from with Sub q _ => query_names q | _ => [] end else []) ++ map fst (st_items st)
  | UnionAll a _ => query_names a
  end.
Definition source_names (from : source query) : list text := match from with Sub q _ => query_names q | _ => [] end.
Definition with_items (items : list (text * expr)) (st : statement) : statement :=
  mkstatement items (st_where st) (st_group st) (st_having st) (st_order st) (st_limit st) (st_offset st).
(** The star written out. *)
Definition starred (star : bool) (from : source query) (st : statement) : statement :=
  with_items ((if star then map (fun n => (n, ECol n)) (source_names from) else []) ++ st_items st) st.
Definition source_alias (from : source query) : option text :=
  match from with Nothing => Some (t "--") | Table _ a => a | Sub _ a => Some a end.

(** The tables named in a query. *)
Fixpoint reads (n : text) (q : query) : Prop :=
  match q with
  | Select _ _ _ from => match from with Nothing => False | Table m _ => n = m | Sub q _ => reads n q end
  | UnionAll a b => reads n a \/ reads n b
  end.
(** A table without database is in the memory database. *)
Definition memory_table (name : text) : text := t "--." ++ name.

Definition query_induction (P : query -> Prop)
  (Hs : forall d star st from, (forall q a, from = Sub q a -> P q) -> P (Select d star st from))
  (Hu : forall a b, P a -> P b -> P (UnionAll a b)) : forall q, P q :=
  fix go q := match q with
  | Select d star st from =>
    Hs d star st from (match from as f return forall q a, f = Sub q a -> P q with
      | Sub q' a' => fun q a E => match E in _ = y return match y with Sub z _ => P z | _ => True end with eq_refl => go q' end
      | Nothing => fun q a E => match E in _ = y return match y with Sub z _ => P z | _ => True end with eq_refl => I end
      | Table n b => fun q a E => match E in _ = y return match y with Sub z _ => P z | _ => True end with eq_refl => I end
      end)
  | UnionAll a b => Hu a b (go a) (go b)
  end.

(** Queries made of SELECT statements of all the kinds above: a SELECT reads no source, one source, or joins several; a source is a table or a query in
    parentheses with a name; queries are put together by UNION ALL, and may be named by WITH. *)
From Verif Require Import Base PyVal Expr_Syntax Group_Syntax Whole_Syntax Winq_Syntax Winsel_Syntax Joins_Syntax Joinsel_Syntax Joingrp_Syntax Full_Syntax.

(** A SELECT without its sources.  In [Joined], [Grouped] and [Collapsed] the FROM and JOIN clauses name the sources of the SELECT, in their order. *)
Inductive core :=
| One (distinct star : bool) (st : statement)          (* over no source or one source *)
| Windowed (st : wstatement)                           (* with window functions, over one source *)
| Joined (st : jselect)                                (* over several sources, without aggregates *)
| Grouped (g : jgroup)                                 (* over several sources, with aggregates *)
| Collapsed (distinct : bool) (g : jgroup).            (* over several sources: DISTINCT, or GROUP BY without aggregates *)
Inductive source (Q : Type) := Table (name : text) (alias : option text) | Sub (q : Q) (alias : text).
Arguments Table {Q}. Arguments Sub {Q}.
Inductive query := Select (c : core) (from : list (source query)) | UnionAll (a b : query).

(** What a SELECT can see of a source: the name by which it is called, its alias if it has one, and the columns of a query. *)
Record shape := Shape { sh_name : text; sh_alias : option text; sh_columns : option (list text) }.
(** The names of the columns of the result. *)
Definition core_names (c : core) (sh : list shape) : list text :=
  match c with
  | One _ star st => (if star then match sh with s :: _ => match sh_columns s with Some l => l | None => [] end | [] => [] end else []) ++ map fst (st_items st)
  | Windowed st => map fst (wq_items (ws_query st))
  | Joined st => map fst (j_items st)
  | Grouped g | Collapsed _ g => map fst (st_items (g_rest g))
  end.
(** The shape of a source, given the columns of a query. *)
Definition shape_by {Q} (columns : Q -> list text) (s : source Q) : shape :=
  match s with
  | Table n a => Shape (match a with Some a => a | None => n end) a None
  | Sub q a => Shape a (Some a) (Some (columns q))
  end.
Fixpoint query_names (q : query) : list text :=
  match q with
  | Select c from => core_names c (map (shape_by query_names) from)
  | UnionAll a _ => query_names a
  end.
Definition shapes (from : list (source query)) : list shape := map (shape_by query_names) from.
(** SELECT * written out. *)
Definition star_written (star : bool) (sh : list shape) (st : statement) : statement :=
  with_items ((if star then match sh with s :: _ => match sh_columns s with Some l => map (fun n => (n, ECol n)) l | None => [] end | [] => [] end else []) ++ st_items st) st.

(** The rows of the sources by their names, for the SELECTs with joins. *)
Definition source_rows (sh : list shape) (ls : list (list (list (text * val)))) : db :=
  fun n => match assoc n (combine (map sh_name sh) ls) with Some l => l | None => [] end.

(** Properties of all, or of some, elements of a list. *)
Section Lists.
Variables (A B : Type).
Variable P : A -> Prop.
Fixpoint every (l : list A) : Prop := match l with [] => True | x :: r => P x /\ every r end.
Fixpoint some (l : list A) : Prop := match l with [] => False | x :: r => P x \/ some r end.
Variable R : A -> B -> Prop.
Fixpoint each (l : list A) (m : list B) : Prop := match l, m with [], [] => True | x :: l', y :: m' => R x y /\ each l' m' | _, _ => False end.
End Lists.
Arguments every {A}. Arguments some {A}. Arguments each {A B}.
Lemma every_Forall : forall A (P : A -> Prop) l, every P l <-> Forall P l.
Proof. intros A P l. induction l as [|x l IH]; cbn [every]; [split; [constructor|exact (fun _ => I)]|]. rewrite IH. split; [intros [H K]; constructor; assumption|intros H; inversion H; auto]. Qed.
Lemma some_Exists : forall A (P : A -> Prop) l, some P l <-> Exists P l.
Proof. intros A P l. induction l as [|x l IH]; cbn [some]; [split; [intros []|intros H; inversion H]|]. rewrite IH. split; [intros [H|H]; [left; exact H|right; exact H]|intros H; inversion H; auto]. Qed.
Lemma each_Forall2 : forall A B (R : A -> B -> Prop) l m, each R l m <-> Forall2 R l m.
Proof.
  intros A B R l. induction l as [|x l IH]; intros [|y m]; cbn [each]; try (split; [intros []|intros H; inversion H]; fail); [split; [constructor|exact (fun _ => I)]|].
  rewrite IH. split; [intros [H K]; constructor; assumption|intros H; inversion H; auto].
Qed.

(** The tables named in a query. *)
Fixpoint reads (n : text) (q : query) : Prop :=
  match q with
  | Select _ from => some (fun s => match s with Table m _ => n = m | Sub q _ => reads n q end) from
  | UnionAll a b => reads n a \/ reads n b
  end.

Lemma query_induction : forall (P : query -> Prop),
  (forall c from, Forall (fun s : source query => match s with Table _ _ => True | Sub q _ => P q end) from -> P (Select c from)) ->
  (forall a b, P a -> P b -> P (UnionAll a b)) -> forall q, P q.
Proof.
  intros P Hs Hu. fix go 1. intros [c from|a b]; [|exact (Hu a b (go a) (go b))]. apply Hs.
  induction from as [|s r IH]; [apply Forall_nil|]. apply Forall_cons; [|exact IH]. destruct s as [n a|q a]; [exact I|exact (go q)].
Qed.

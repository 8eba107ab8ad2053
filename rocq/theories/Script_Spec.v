(** What a script does, independent of the compiler. *)
From Verif Require Import Base PyVal Expr_Syntax Expr_Spec Where_Spec Having_Spec Agg_Spec Reduce_Spec Group_Syntax Inner_Syntax Inner_Spec Select_Spec Whole_Syntax Whole_Spec
  Cast_Syntax Collapse_Spec Alias_Spec Insert_Spec Full_Syntax Full_Spec Script_Syntax.

Section Meaning.
Variable tt : text -> bool.
Variable fn : text -> list val -> val.
Variable str_of : val -> text.
Variable leK : val -> val -> bool.
Variable same : list val -> list val -> bool.
Variable reserved : text -> Prop.
Notation rows := (list (list (text * val))).
Notation tables := (text -> rows).
Notation with_means := (with_means tt fn str_of leK same).
Notation with_proper := (with_proper tt fn str_of leK same reserved).

Definition change (tb : tables) (n : text) (f : rows -> rows) : tables := fun m => if text_eqb m n then f (tb m) else tb m.
(** DELETE leaves the rows for which the condition is not TRUE. *)
Definition left_by (w : option expr) (l : rows) : rows := filter (fun o => negb (holds tt fn w (column o))) l.
(** [shown]: the results of the queries; [final]: the tables at the end.  The names of WITH are known in their statement only. *)
Fixpoint script_means (tb : tables) (cs : list command) (shown : list rows) (final : tables) : Prop :=
  match cs with
  | [] => shown = [] /\ forall n, final n = tb n
  | Show ctes q :: r => exists out rest, with_means tb ctes q out /\ shown = out :: rest /\ script_means tb r rest final
  | InsertQuery n ctes q :: r => exists out, with_means tb ctes q out /\ script_means (change tb n (fun l => l ++ out)) r shown final
  | InsertRows n names tuples :: r => script_means (change tb n (fun l => l ++ map (stored_row names) tuples)) r shown final
  | DeleteFrom n w :: r => script_means (change tb n (left_by w)) r shown final
  end.

(** The statements for which the claim is made. *)
(** VALUES: columns without type annotations; the values of a column are all of one type of numbers, or none is a number. *)
Definition insertable (names : list text) (tuples : list (list val)) : Prop :=
  (forall n, In n names -> ~ In 91%N n) /\ NoDup names /\ names <> [] /\ tuples <> [] /\
  (forall tp, In tp tuples -> (length tp <= length names)%nat) /\
  forall i, (i < length names)%nat -> (forall tp ty, In tp tuples -> ~ is_number_type (column_value i tp) ty) \/
                                      exists ty, forall tp, In tp tuples -> is_number_type (column_value i tp) ty.
(** DELETE: every condition joined by AND compares a column with an expression without columns, or is column IN (...); names have no bar. *)
Definition decidable_by_source (e : expr) : Prop :=
  (exists k n b, e = EBin k (ECol n) b /\ comparison_op k = true /\ ~ In 124%N n /\ forall m, ~ mentions m b) \/
  (exists n l, e = EIn (ECol n) l /\ ~ In 124%N n).
Definition deletable (w : option expr) : Prop := plain_where tt fn w /\ forall e, w = Some e -> top_level decidable_by_source e.
Fixpoint script_proper (tb : tables) (cs : list command) : Prop :=
  match cs with
  | [] => True
  | Show ctes q :: r => with_proper tb ctes q /\ script_proper tb r
  | InsertQuery n ctes q :: r => with_proper tb ctes q /\ forall out, with_means tb ctes q out -> script_proper (change tb n (fun l => l ++ out)) r
  | InsertRows n names tuples :: r => insertable names tuples /\ script_proper (change tb n (fun l => l ++ map (stored_row names) tuples)) r
  | DeleteFrom n w :: r => deletable w /\ script_proper (change tb n (left_by w)) r
  end.

(** A WITH as the program has it: a name stands for the rows that are already in the table of that name, followed by those of its query. *)
Fixpoint with_left (tb : tables) (ctes : list (text * query)) (q : query) (out : rows) : Prop :=
  match ctes with
  | [] => means tt fn str_of leK same tb q out
  | (name, q') :: r => exists l, means tt fn str_of leK same tb q' l /\ with_left (change tb (memory_table name) (fun m => m ++ l)) r q out
  end.
Fixpoint with_left_proper (tb : tables) (ctes : list (text * query)) (q : query) : Prop :=
  match ctes with
  | [] => proper tt fn str_of leK same reserved tb q
  | (name, q') :: r => proper tt fn str_of leK same reserved tb q' /\
      forall l, means tt fn str_of leK same tb q' l -> with_left_proper (change tb (memory_table name) (fun m => m ++ l)) r q
  end.
End Meaning.

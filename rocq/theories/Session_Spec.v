(** What a script over the queries of Compose_Spec does, independent of the compiler: as in Script_Spec, whose effects of INSERT and DELETE are used. *)
From Verif Require Import Base PyVal Expr_Syntax Expr_Spec Whole_Spec Insert_Spec Script_Spec Full_Syntax Compose_Syntax Compose_Spec Session_Syntax.

Section Meaning.
Variable tt : text -> bool.
Variable fn : text -> list val -> val.
Variable answers : core -> list shape -> list rows -> rows -> Prop.       (* what a SELECT may return *)
Variable acceptable : core -> list shape -> list rows -> Prop.            (* the SELECTs for which the claim is made *)
Notation tables := (text -> rows).
Notation with_means := (with_means answers).
Notation with_proper := (with_proper answers acceptable).

(** [shown]: the results of the queries; [final]: the tables at the end.  The names of WITH are known in their statement only. *)
Fixpoint session_means (tb : tables) (cs : list command) (shown : list rows) (final : tables) : Prop :=
  match cs with
  | [] => shown = [] /\ forall n, final n = tb n
  | Show ctes q :: r => exists out rest, with_means tb ctes q out /\ shown = out :: rest /\ session_means tb r rest final
  | InsertQuery n ctes q :: r => exists out, with_means tb ctes q out /\ session_means (change tb n (fun l => l ++ out)) r shown final
  | InsertRows n names tuples :: r => session_means (change tb n (fun l => l ++ map (stored_row names) tuples)) r shown final
  | DeleteFrom n w :: r => session_means (change tb n (left_by tt fn w)) r shown final
  end.

Fixpoint session_proper (tb : tables) (cs : list command) : Prop :=
  match cs with
  | [] => True
  | Show ctes q :: r => with_proper tb ctes q /\ session_proper tb r
  | InsertQuery n ctes q :: r => with_proper tb ctes q /\ forall out, with_means tb ctes q out -> session_proper (change tb n (fun l => l ++ out)) r
  | InsertRows n names tuples :: r => insertable names tuples /\ session_proper (change tb n (fun l => l ++ map (stored_row names) tuples)) r
  | DeleteFrom n w :: r => deletable tt fn w /\ session_proper (change tb n (left_by tt fn w)) r
  end.

(** A WITH as the program has it: a name stands for the rows that are already in the table of that name, followed by those of its query. *)
Fixpoint with_left (tb : tables) (ctes : list (text * query)) (q : query) (out : rows) : Prop :=
  match ctes with
  | [] => means answers tb q out
  | (name, q') :: r => exists l, means answers tb q' l /\ with_left (change tb (memory_table name) (fun m => m ++ l)) r q out
  end.
Fixpoint with_left_proper (tb : tables) (ctes : list (text * query)) (q : query) : Prop :=
  match ctes with
  | [] => proper answers acceptable tb q
  | (name, q') :: r => proper answers acceptable tb q' /\
      forall l, means answers tb q' l -> with_left_proper (change tb (memory_table name) (fun m => m ++ l)) r q
  end.
End Meaning.

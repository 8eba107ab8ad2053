(** What a query returns, independent of the compiler: of each SELECT, what Alias_Spec, Winsel_Spec, Joinsel_Spec, Joingrp_Spec or Collapse_Spec say of it over the rows of its sources. *)
From Coq Require Import SpecFloat Permutation.
From Verif Require Import Base PyVal Expr_Syntax Expr_Spec Having_Spec Agg_Spec Reduce_Spec Group_Syntax Group_Spec Inner_Syntax Inner_Spec Select_Spec Whole_Syntax Whole_Spec
  Cast_Syntax Collapse_Spec Alias_Spec Winq_Syntax Winq_Spec Winsel_Syntax Winsel_Spec Joins_Syntax Joins_Spec Joinsel_Syntax Joinsel_Spec Joingrp_Syntax Joingrp_Spec
  Full_Syntax Compose_Syntax.
Notation rows := (list (list (text * val))).

(** ** One SELECT *)
(** Its result has the columns of its select list in their order: not claimed of expressions around window functions. *)
Definition regular_core (c : core) : Prop := match c with Windowed st => Forall (fun ai => direct (snd ai)) (wq_items (ws_query st)) | _ => True end.
Definition is_star (c : core) : Prop := match c with One _ true _ => True | _ => False end.

Section Core.
Variable tt : text -> bool.
Variable fn : text -> list val -> val.
Variable str_of : val -> text.
Variable leK : val -> val -> bool.
Variable same : list val -> list val -> bool.
Variable wfn : text -> list (list val * list val) -> nat -> val.
Variable cmpv : cmp -> val -> val -> bool.

Definition core_answers (c : core) (sh : list shape) (ls : list rows) (out : rows) : Prop :=
  match c with
  | One d star st =>
    exists l, match ls with [] => l = [[]] | x :: _ => l = x end /\ Alias_Spec.answers tt fn str_of leK same d (star_written star sh st) (map column l) out
  | Windowed st =>
    exists l, match ls with [] => l = [[]] | x :: _ => l = x end /\ windowed_result tt fn str_of leK same wfn sql_frame st (map column l) out /\
              (regular_core c -> forall o, In o out -> map fst o = map fst (wq_items (ws_query st)))
  | Joined st => exists s r, sh = s :: r /\ Joinsel_Spec.answers cmpv leK (sh_name s) (source_rows sh ls) st out
  | Grouped g => exists s r, sh = s :: r /\ grouped_result tt fn str_of leK same (g_rest g) (joined cmpv (sh_name s) (source_rows sh ls) (g_from g)) out
  | Collapsed d g =>
    exists s r, sh = s :: r /\ collapsed_result tt fn leK same (if d then item_values tt fn (g_rest g) else bare_key tt fn (g_rest g)) (g_rest g)
                                (joined cmpv (sh_name s) (source_rows sh ls) (g_from g)) out
  end.
End Core.

(** ** Queries *)
Section Meaning.
Variable answers : core -> list shape -> list rows -> rows -> Prop.       (* what a SELECT may return *)
Variable acceptable : core -> list shape -> list rows -> Prop.            (* the SELECTs for which the claim is made *)
Notation tables := (text -> rows).

(** The rows a query may return when the tables have the rows [tb]. *)
Fixpoint means (tb : tables) (q : query) (out : rows) {struct q} : Prop :=
  match q with
  | Select c from =>
    exists ls, each (fun s l => match s with Table n _ => l = tb n | Sub q _ => means tb q l end) from ls /\ answers c (shapes from) ls out
  | UnionAll a b => exists x y, means tb a x /\ means tb b y /\ out = x ++ y
  end.
Fixpoint regular (q : query) : Prop := match q with Select c _ => regular_core c | UnionAll a b => regular a /\ regular b end.
(** The queries for which the claim is made: each SELECT is acceptable, whatever rows its sources return; a star is for the columns of a regular query; the SELECTs
    of a UNION ALL are regular and have the same names. *)
Fixpoint proper (tb : tables) (q : query) {struct q} : Prop :=
  match q with
  | Select c from =>
    every (fun s => match s with Table _ _ => True | Sub q _ => proper tb q end) from /\
    (is_star c -> exists q a, from = [Sub q a] /\ regular q) /\
    forall ls, each (fun s l => match s with Table n _ => l = tb n | Sub q _ => means tb q l end) from ls -> acceptable c (shapes from) ls
  | UnionAll a b => proper tb a /\ proper tb b /\ regular a /\ regular b /\ query_names a = query_names b
  end.

(** WITH name AS (query), ...: each name is a table with the rows of its query, in which the names before it may be used. *)
Definition define (tb : tables) (name : text) (l : rows) : tables := fun n => if text_eqb n (memory_table name) then l else tb n.
Fixpoint with_means (tb : tables) (ctes : list (text * query)) (q : query) (out : rows) : Prop :=
  match ctes with
  | [] => means tb q out
  | (name, q') :: r => exists l, means tb q' l /\ with_means (define tb name l) r q out
  end.
Fixpoint with_proper (tb : tables) (ctes : list (text * query)) (q : query) : Prop :=
  match ctes with
  | [] => proper tb q
  | (name, q') :: r => proper tb q' /\ forall l, means tb q' l -> with_proper (define tb name l) r q
  end.
End Meaning.

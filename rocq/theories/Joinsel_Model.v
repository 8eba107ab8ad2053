(** Model of compile_select (compiler.py:386-580) for a SELECT over joined tables without aggregates, windows, HAVING, GROUP BY
    and DISTINCT: the rewrites and joins of Joins_Model, the WHERE conjuncts pushed to the loader of the primary table (810-960), and
    ORDER BY, LIMIT and OFFSET as in Select_Model.

    Trusted reading of the external package: the loader of the primary table applies the pushed conditions, config["orders"] and @limit
    before anything is joined; then the joins the select list or the predicate needs are made as in Joins_Model, the predicate keeps
    combinations, the select list makes rows, the pipelines run.
    Simplifications: as in Joins_Model; every select item has a name and is an operand (column or expression), ORDER BY
    lists columns; columns of WHERE are written with their table name (an unqualified one in the residual predicate would be looked up in the
    select list first, compiler.py:962-967); type conversions are left out. *)
From Verif Require Import Base PyVal Select_Model Joins_Syntax Joins_Model Joinsel_Syntax.
Open Scope Z_scope.

Section Joinsel.
Variable cmpv : cmp -> val -> val -> bool.
Variable leK : val -> val -> bool.
Variable d : db.

Definition output := list (text * val).
Definition field (n : text) (o : output) : val := match assoc n o with Some v => v | None => VNone end.
Definition cell (n : text) (r : row) : val := match assoc n r with Some v => v | None => VNone end.

(** compiler.py:853-862: the column is one of the primary table. *)
Definition of_primary (p : text) (c : col) : bool := match ctab c with Some tb => text_eqb tb p | None => true end.
(** compiler.py:846-890 parse_condition and 907-957: the query pushed for one conjunct. A constant on the left changes places with the
    column, the operator stays. *)
Definition push (p : text) (a : atom) : option (text * (val -> bool)) :=
  let against (o : cmp) (c : col) (other : operand) :=
    if of_primary p c then match ocolumns other with [] => Some (cname c, fun v => cmpv o v (no_args other)) | _ :: _ => None end else None in
  match a with
  | ACmp o l r =>
    match col_of l with
    | Some c => against o c r
    | None => match col_of r with Some c => against o c l | None => None end
    end
  | AIn l f => match col_of l with Some c => if of_primary p c then Some (cname c, f) else None | None => None end
  | AOther _ _ => None
  end.
Definition pushed_to (p : text) (a : atom) : bool := match push p a with Some _ => true | None => false end.
(** The rows of the primary table meeting the pushed queries. *)
Definition meets (p : text) (w : list atom) (r : row) : bool :=
  forallb (fun a => match push p a with Some (n, f) => f (cell n r) | None => true end) w.
(** compiler.py:810-821, 517-522: what is left is config["predicate"]; a pushed conjunct inside it is the constant 1. *)
Definition residual (p : text) (w : list atom) : list atom := filter (fun a => negb (pushed_to p a)) w.
Definition predicate (p : text) (w : list atom) : option (env -> bool) :=
  match residual p w with [] => None | l => Some (fun e => forallb (test_atom cmpv p e) l) end.

(** The tables of the columns of a select list or condition. *)
Definition tables_of (cs : list col) : list text := flat_map (fun c => match ctab c with Some tb => [tb] | None => [] end) cs.
(** compiler.py:686-697, 995-1008, 712-731 compile_join_column_tables: the joins whose table is read, and those that their ON conditions
    read in turn (an ON reads tables before it, so one pass from the last join to the first). *)
Fixpoint needed_joins (need : list text) (js : list join) : list join * list text :=
  match js with
  | [] => ([], need)
  | j :: r =>
    let (kept, need') := needed_joins need r in
    if memb (jtab j) need' then (j :: kept, tables_of (flat_map acolumns (jon j)) ++ need') else (kept, need')
  end.
(** compiler.py:657-659, 690-696, 1001-1004: a table that is neither the primary one nor joined. *)
Definition known_tables (p : text) (js : list join) (need : list text) : bool :=
  forallb (fun tb => text_eqb tb p || memb tb (map jtab js)) need.

(** compiler.py:669-670, 2289-2291: primary_table["columns"] once the select list is compiled. Columns of the primary table in ON, which parse_calculate also
    registers when they are inside an expression, are left out. *)
Definition primary_columns (p : text) (items : list (text * operand)) : list text :=
  map cname (filter (of_primary p) (flat_map (fun it => ocolumns (snd it)) items)).

Definition make_row (p : text) (items : list (text * operand)) (e : env) : output :=
  map (fun it => (fst it, get_op p e (snd it))) items.

(** compiler.py:386-550: [aliased]: the primary table has an alias (its name is then the alias). *)
Definition select_of (aliased : bool) (p : text) (q : query) (st : jselect) : select env output :=
  mkselect (Some (map fst (j_items st))) None (primary_columns p (j_items st)) p (if aliased then Some p else None) []
    (predicate p (qwhere q)) None false false
    (map (fun k => Select_Model.OCol (match ctab (fst k) with Some tb => tb | None => [] end) (cname (fst k)) (snd k)) (j_order st))
    (j_limit st) (j_offset st).

Definition run_compiled (aliased : bool) (st : jselect) (q : query) : res (list output) :=
  match qfrom q with
  | [p] =>
    do _ <- run_joins cmpv d p (qjoins q) [];            (* every ON is parsed *)
    let need := tables_of (flat_map (fun it => ocolumns (snd it)) (j_items st) ++ flat_map acolumns (residual p (qwhere q))) in
    if known_tables p (qjoins q) need then
      do k <- compile_select env output (select_of aliased p q st);
      let source := take (t_limit k) (sort (le_by val leK cell (t_orders k)) (filter (meets p (qwhere q)) (d p))) in
      do es <- run_joins cmpv d p (fst (needed_joins need (qjoins q))) (map (fun r => [(p, Some r)]) source);
      Ok (fold_left (apply_pipeline output val leK field) (t_pipelines k) (map (make_row p (j_items st)) (keep (t_predicate k) es)))
    else Err CompileError
  | _ => Err CompileError
  end.

(** [None]: the compiler does not return. *)
Definition run_joinsel (fuel : nat) (aliased : bool) (st : jselect) : option (res (list output)) :=
  match optimize fuel (j_query st) with None => None | Some q => Some (run_compiled aliased st q) end.
End Joinsel.

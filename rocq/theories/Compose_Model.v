(** Model of whole queries whose SELECTs may have joins and window functions: compiler.py:208-235 compile_query, 237-252 compile_with, 253-270 compile_subquery,
    339-384 compile_union, 386-431 (the sources of compile_select), 622-652 compile_select_star_column for the star of a subquery, 2003-2030 (the sources of
    parse_joins), 571-577 (input and output); and of their execution in the order of taskers/query.py:181-200, as in Full_Model.  The SELECTs themselves are those of
    Alias_Model, Winsel_Model, Joinsel_Model, Joingrp_Model and Joincol_Model.

    Simplifications: as in Full_Model; the subqueries of one SELECT are dependencies in the order in which they are written (the code: in the order after the
    rewrite of the joins, 230 and 2923-3201; each writes a table of its own and reads none of the others'); a table is loaded when the task that reads it
    runs, also the joined ones.  Not modelled: what Full_Model and the models of the SELECTs leave out; SELECT * and alias.* over joins. *)
From Coq Require Import SpecFloat.
From Verif Require Import Base PyVal Str_Model Expr_Syntax Expr_Model Having_Model Group_Syntax Group_Model Inner_Syntax Inner_Model
  Select_Model Whole_Syntax Whole_Model Collapse_Model Alias_Model Union_Model Winq_Syntax Winq_Model Winsel_Syntax Winsel_Model
  Joins_Syntax Joins_Model Joinsel_Syntax Joinsel_Model Joingrp_Syntax Joingrp_Model Joincol_Model Full_Syntax Full_Model Compose_Syntax.
Open Scope nat_scope.

(** ** One SELECT *)
Section Core.
Variable frepr : spec_float -> text.
Variable ident : val -> val -> bool.
Variable ext : text -> option (list val -> val).
Variable lib : text -> list val -> val.
Variable known : text -> bool.
Variable str_of : val -> text.
Variable primary : option text.
Variable pick pick1 : list Group_Model.row -> Group_Model.row.
Variable nested : text -> Group_Model.row -> val.
Variable raw : list (text * state) -> val.
Variable state_name : path -> text.
Variable other : expr -> res hcol.
Variable rematch : text -> val -> bool.
Variable leK : val -> val -> bool.
Variable wfn : text -> list (list val * list val) -> nat -> val.
Variable cmpv : cmp -> val -> val -> bool.
Variable fuel : nat.                                   (* for the rewrite of the joins *)

(** compiler.py:432-567 for a source with an alias: as [compile_wstatement] and [run_wstatement]. *)
Definition compile_waliased (a : option text) (st : wstatement) : res (wconfig * plan) :=
  do cfg <- wcompile frepr ident ext known (ws_query st);
  let view := mkconfig (erase (s_cols cfg)) [] [] in
  do pred <- Whole_Model.residual frepr ident ext view (fst (where_parts frepr ident ext (ws_where st)));
  do hav <- match ws_having st with
            | None => Ok None
            | Some e => do h <- having frepr ident ext (Some (map fst (s_cols cfg))) other e; Ok (Some h)
            end;
  do k <- compile_select Group_Model.row Whole_Model.output (set_alias a (to_wselect frepr ident ext lib rematch st cfg pred hav));
  Ok (cfg, mkplan view (snd (where_parts frepr ident ext (ws_where st))) k).
Definition run_waliased (a : option text) (st : wstatement) (table : list Group_Model.row) : res (list Whole_Model.output) :=
  do cp <- compile_waliased a st;
  let (cfg, p) := (cp : wconfig * plan) in
  do outs <- match t_kind (p_task p) with
             | KPlain | KComputed => run_wquery frepr ident ext lib str_of leK nested wfn cfg (loaded frepr ident ext lib leK p table)
             | _ => Err OtherError
             end;
  Ok (fold_left (apply_pipeline Whole_Model.output val leK Whole_Model.field) (t_pipelines (p_task p)) (keep (t_having (p_task p)) outs)).

(** The names in config["schema"] of a compiled SELECT: compiler.py:454-514; an expression around window functions leaves only the columns made for them (1424-1431). *)
Definition core_schema (c : core) (sh : list shape) : list text :=
  match c with
  | Windowed st => flat_map (fun ai => match snd ai with WExpr _ holes => map fst holes | _ => [fst ai] end) (wq_items (ws_query st))
  | _ => core_names c sh
  end.
(** compiler.py:396-403: without FROM there is one row without columns, and the alias is "--". *)
Definition first_alias (sh : list shape) : option text := match sh with [] => Some (t "--") | s :: _ => sh_alias s end.
Definition only_rows (ls : list (list Whole_Model.output)) : list Group_Model.row := map (fun o n => Whole_Model.field n o) (match ls with [] => [[]] | l :: _ => l end).
Definition has_name (sh : list shape) : bool := match first_alias sh with Some _ => true | None => false end.
(** The names of config["schema"] of the subquery stand for the star (622-651); without a subquery the star is not modelled. *)
Definition starless (star : bool) (sh : list shape) : bool := negb star || match sh with s :: _ => match sh_columns s with Some _ => true | None => false end | [] => false end.
Definition run_core (c : core) (sh : list shape) (ls : list (list Whole_Model.output)) : res (list Whole_Model.output) :=
  match c with
  | One d star st =>
    if starless star sh then
      run_aliased frepr ident ext lib str_of primary pick pick1 nested raw state_name other rematch leK (first_alias sh) d (star_written star sh st) (only_rows ls)
    else Err OtherError
  | Windowed st => run_waliased (first_alias sh) st (only_rows ls)
  | Joined st => match run_joinsel cmpv leK (source_rows sh ls) fuel (has_name sh) st with Some r => r | None => Err OtherError end
  | Grouped g =>
    match run_joingrp cmpv frepr ident ext lib str_of pick nested raw state_name other rematch leK (source_rows sh ls) fuel (has_name sh) g with Some r => r | None => Err OtherError end
  | Collapsed d g =>
    match run_joincol cmpv frepr ident ext lib primary pick pick1 nested state_name other rematch leK (source_rows sh ls) fuel d (has_name sh) g with Some r => r | None => Err OtherError end
  end.
End Core.

(** ** Queries *)
Notation rows := (list Whole_Model.output).
(** A compiled task: what it computes from the rows of its inputs, the tables it reads (none: const_loader), the table it writes (None: the result of the
    statement), its dependencies.  The first table is the one in config["input"]. *)
Inductive task := Task (f : list rows -> res rows) (inputs : list text) (output : option text) (deps : list task).
Definition set_output (o : text) (c : task) : task := match c with Task f i _ d => Task f i (Some o) d end.

Section Compose.
Variable select : core -> list shape -> list rows -> res rows.        (* [run_core] *)
Variable temp : nat -> text.                         (* "__subquery_" or "__unionquery_" and a uuid *)
Variable pk : text.                                  (* what follows :: in an input *)

(** The names of config["schema"], for a UNION those of the first branch when all have the same (363-378). *)
Fixpoint schema (q : query) : list text :=
  match q with
  | Select c from => core_schema c (map (shape_by schema) from)
  | UnionAll a _ => schema a
  end.
Fixpoint branch_names (q : query) : list (list text) :=
  match q with
  | Select _ _ => [schema q]
  | UnionAll a b => branch_names a ++ branch_names b
  end.
(** compiler.py:354-384: the task reading the table of the UNION. *)
Definition union_task (q : query) (ls : list rows) : res rows :=
  if forallb (same_names (schema q)) (branch_names q) then Ok (map (outer_row val VNone (Some (schema q))) (concat ls)) else Err OtherError.
(** compile_query on the tasks of the branches of [q] (a SELECT is one branch). *)
Definition whole (q : query) (k : nat) (branches : list task) : task :=
  match q with
  | Select _ _ => match branches with c :: _ => c | [] => Task (fun _ => Err OtherError) [] None [] end
  | UnionAll _ _ => Task (union_task q) [memory_table (temp k)] None (map (set_output (memory_table (temp k))) branches)
  end.
(** compiler.py:410-422 and 2010-2017: the inputs of a SELECT and its dependencies; [k] counts the names already given. *)
Section Sources.
Variable branches : query -> nat -> list task * nat.
Fixpoint compile_sources (from : list (source query)) (k : nat) : list text * list task * nat :=
  match from with
  | [] => ([], [], k)
  | Table n _ :: r => let '(i, d, k1) := compile_sources r k in (n :: i, d, k1)
  | Sub q _ :: r =>
    let '(cs, k1) := branches q (S (S k)) in
    let '(i, d, k2) := compile_sources r k1 in
    (memory_table (temp k) :: i, set_output (memory_table (temp k)) (whole q (S k) cs) :: d, k2)
  end.
End Sources.
(** compiler.py:341-350, 356-379. *)
Fixpoint compile_branches (q : query) (k : nat) : list task * nat :=
  match q with
  | Select c from =>
    let '(i, d, k1) := compile_sources compile_branches from k in
    ([Task (select c (map (shape_by schema) from)) i None d], k1)
  | UnionAll a b =>
    let '(ca, k1) := compile_branches a k in
    let '(cb, k2) := compile_branches b k1 in
    (ca ++ cb, k2)
  end.
Definition compile_query (q : query) (k : nat) : task * nat :=
  let '(cs, k1) := compile_branches q (S k) in (whole q k cs, k1).

(** compiler.py:245-251: a dependency whose input starts with the name of the table of the query is made to read its own output. *)
Definition fix_dependency (table : text) (c : task) : task :=
  match c with
  | Task f (i :: r) (Some o) d => if prefixb (t "&." ++ table) (t "&." ++ i ++ t "::" ++ pk) then Task f (o :: r) (Some o) d else c
  | Task f [] (Some o) d => if prefixb (t "&." ++ table) (t "&.--.--::" ++ pk) then Task f [o] (Some o) d else c
  | _ => c
  end.
Fixpoint compile_with (ctes : list (text * query)) (k : nat) : list task * nat :=
  match ctes with
  | [] => ([], k)
  | (name, q) :: r =>
    let '(Task f i _ d, k1) := compile_query q k in
    let '(cs, k2) := compile_with r k1 in
    (Task f i (Some (memory_table name)) (map (fix_dependency (memory_table name)) d) :: cs, k2)
  end.
Definition compile_statement (ctes : list (text * query)) (q : query) : task :=
  let '(cs, k) := compile_with ctes 0 in
  let '(Task f i o d, _) := compile_query q k in
  Task f i o (cs ++ d).

(** The tables, and the rows of the result: [store] and [append] of Full_Model. query.py:186-194: the dependencies in order, then the task itself. *)
Fixpoint run (c : task) (s : store) : res store :=
  match c with
  | Task f i o deps =>
    do s <- (fix go l s := match l with [] => Ok s | d :: r => do s <- run d s; go r s end) deps s;
    do out <- f (map (fst s) i);
    Ok (append o out s)
  end.
Definition execute (ctes : list (text * query)) (q : query) (tables : text -> rows) : res rows :=
  do s <- run (compile_statement ctes q) (tables, []); Ok (snd s).
End Compose.

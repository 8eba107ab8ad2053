(** Model of UNION (compiler.py:339-384 compile_union) for branches without aggregate and window columns.

    Trusted reading of the external packages: sqlglot (11.5) builds one node per set operator, whose class for EXCEPT and INTERSECT
    is a subclass of Union, and a Subquery node, which has no "expression", for a parenthesised query; a task with an output
    "&.--.x ... use I" appends its rows to the table x of the process' memory; "$.name" of a row without that name is NULL;
    the tasks in config["dependencys"] run one after another before the task itself.
    WHERE, HAVING, ORDER BY and LIMIT of a branch decide which rows it produces, in which order, and are inside [b_rows]. *)
From Verif Require Import Base Agg_Model.

Section Union.
Variables Row V : Type.
Variable null : V.

(** compiler.py:199-214, 400-460: a branch is a SELECT with named columns, computed from a source row, or SELECT *. *)
Inductive branch :=
| BCols (schema : list (text * (Row -> V))) (rows : list Row)
| BStar (rows : list (list (text * V))).

Inductive set_op := OpUnion | OpUnionAll | OpExcept | OpIntersect.

(** The node's own ORDER BY and LIMIT are in [mods]. *)
Inductive tree :=
| TSel (b : branch)
| TOp (op : set_op) (mods : list text) (l r : tree)
| TParen (q : tree).

(** compiler.py:341-350 parse *)
Fixpoint branches (q : tree) : res (list branch) :=
  match q with
  | TSel b => Ok [b]
  | TOp _ _ l r => do a <- branches l; do b <- branches r; Ok (a ++ b)
  | TParen q => do _ <- branches q; Err KeyError
  end.

(** Python's order of str: by code points. *)
Fixpoint text_le (a b : text) : bool :=
  match a, b with
  | [], _ => true
  | _ :: _, [] => false
  | x :: a, y :: b => N.ltb x y || (N.eqb x y && text_le a b)
  end.
Fixpoint tinsert (x : text) (l : list text) : list text :=
  match l with
  | [] => [x]
  | y :: r => if text_le x y then x :: l else y :: tinsert x r
  end.
(** sorted(list(schema.keys())) *)
Fixpoint tsort (l : list text) : list text :=
  match l with [] => [] | x :: r => tinsert x (tsort r) end.

(** compiler.py:369-373: the loop over i, on the two lists of names; a name missing in the schema cannot happen. *)
Fixpoint pair_columns {A} (union sub : list text) (schema : list (text * A)) : list (text * A) :=
  match union, sub with
  | u :: us, s :: ss =>
    pair_columns us ss
      (if text_eqb u s then schema
       else match assoc s schema with Some c => dict_set u c schema | None => schema end)
  | _, _ => schema
  end.

(** The rows a branch puts into the memory table. *)
Definition branch_rows (b : branch) : list (list (text * V)) :=
  match b with
  | BCols schema rows => map (fun r => map (fun c => (fst c, snd c r)) schema) rows
  | BStar rows => rows
  end.

(** compiler.py:354-379: one pass over the branches. State: config["schema"] (None for "$.*") and union_column_names. *)
Fixpoint compile_branches (outer : option (list text)) (names : option (list text)) (l : list branch)
  : option (list text) * list branch :=
  match l with
  | [] => (outer, [])
  | BStar rows :: r => let (o, bs) := compile_branches outer names r in (o, BStar rows :: bs)
  | BCols schema rows :: r =>
    let own := map fst schema in
    let outer' := map fst (fold_left (fun m n => dict_set n tt m) own
                             (map (fun n => (n, tt)) (match outer with None => [] | Some o => o end))) in
    match names with
    | None => let (o, bs) := compile_branches (Some outer') (Some (tsort own)) r in (o, BCols schema rows :: bs)
    | Some union =>
      let (o, bs) := compile_branches (Some outer') names r in
      (o, BCols (pair_columns union (tsort own) schema) rows :: bs)
    end
  end.

(** compiler.py:380-384: the outer task reads the memory table. *)
Definition outer_row (schema : option (list text)) (row : list (text * V)) : list (text * V) :=
  match schema with
  | None => row
  | Some names => map (fun n => (n, match assoc n row with Some v => v | None => null end)) names
  end.
Definition union (q : tree) : res (list (list (text * V))) :=
  do l <- branches q;
  let (schema, bs) := compile_branches None None l in
  Ok (map (outer_row schema) (flat_map branch_rows bs)).
End Union.
Arguments BCols {Row V}. Arguments BStar {Row V}. Arguments TSel {Row V}. Arguments TOp {Row V}. Arguments TParen {Row V}.

(** Model of compile_select as a whole for a table with an alias or a subquery with its name: as Whole_Model and Collapse_Model, with
    primary_table["table_alias"] set, which changes what compile_order pushes to the source (compiler.py:1961-1967; 394, 409-417, 425 set the alias).

    Not modelled: as in Whole_Model; in particular columns are written without the alias before them. *)
From Coq Require Import SpecFloat.
From Verif Require Import Base PyVal Utils_Model Calc_Model Expr_Syntax Expr_Model Where_Model Having_Model Group_Syntax Group_Model Inner_Syntax Inner_Model
  Select_Model Whole_Syntax Cast_Syntax Cast_Where Whole_Model Collapse_Model.
Open Scope Z_scope.

Section Alias.
Variable frepr : spec_float -> text.
Variable ident : val -> val -> bool.
Variable ext : text -> option (list val -> val).
Variable lib : text -> list val -> val.
Variable str_of : val -> text.
Variable primary : option text.
Variable pick pick1 : list row -> row.
Variable nested : text -> row -> val.
Variable raw : list (text * state) -> val.
Variable state_name : path -> text.
Variable other : expr -> res hcol.
Variable rematch : text -> val -> bool.
Variable leK : val -> val -> bool.

(** compiler.py:409-417: primary_table["table_alias"]. *)
Definition set_alias (a : option text) (q : select row output) : select row output :=
  mkselect (s_schema _ _ q) (s_aggregate _ _ q) (s_columns _ _ q) (s_table _ _ q) a (s_select_columns _ _ q)
    (s_predicate _ _ q) (s_having _ _ q) (s_group _ _ q) (s_distinct _ _ q) (s_order _ _ q) (s_limit _ _ q) (s_offset _ _ q).
(** compiler.py:432-567, as [compile_collapsed]. *)
Definition compile_aliased (a : option text) (d : bool) (st : statement) : res plan :=
  let parts := where_parts frepr ident ext (st_where st) in
  do cfg <- compile_written state_name frepr ident ext (mkwritten (st_items st) (st_group st));
  do pred <- residual frepr ident ext cfg (fst parts);
  do hav <- match st_having st with
            | None => Ok None
            | Some e => do h <- having frepr ident ext (Some (map fst (g_schema cfg))) other e; Ok (Some h)
            end;
  do k <- compile_select row output (set_alias a (set_distinct d (select_by frepr ident ext lib rematch parts st cfg pred hav)));
  Ok (mkplan cfg (snd parts) k).

(** As [run_collapsed]: the rows of a task of each kind. *)
Definition kind_rows (cfg : config) (group : list group_item) (k : kind) (rows : list row) : res (list output) :=
  match k with
  | KPlain => Ok (map (plain_row frepr ident ext lib cfg) rows)
  | KComputed => run_query frepr ident ext lib str_of pick nested raw cfg rows
  | KGrouped => Ok (collapsed_by frepr ident ext lib primary pick pick1 nested cfg (compile_keys frepr ident ext (g_schema cfg) group) rows)
  | KDistinct => Ok (collapsed_by frepr ident ext lib primary pick pick1 nested cfg (distinct_keys cfg) rows)
  end.
Definition run_aliased (a : option text) (d : bool) (st : statement) (table : list row) : res (list output) :=
  do p <- compile_aliased a d st;
  do outs <- kind_rows (p_config p) (st_group st) (t_kind (p_task p)) (loaded frepr ident ext lib leK p table);
  Ok (fold_left (apply_pipeline output val leK field) (t_pipelines (p_task p)) (keep (t_having (p_task p)) outs)).
End Alias.

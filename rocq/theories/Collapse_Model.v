(** Model of SELECT DISTINCT and of GROUP BY without aggregates as whole statements, for one table without alias: compiler.py:552-559 and 1112-1170
    (compile_group_column, compile_distinct_column), on top of Whole_Model.

    Trusted reading of the external package: as for aggregates (header of Group_Model), the rows are grouped by the value of the key; the
    column chosen by compile_group_column / compile_distinct_column is that of one row of the group ([pick1]), the other columns are
    those of one row of the group ([pick]); nothing is assumed about which.
    Not modelled: as in Whole_Model. *)
From Coq Require Import SpecFloat.
From Verif Require Import Base PyVal Utils_Model Calc_Model Expr_Syntax Expr_Model Where_Model Having_Model Group_Syntax Group_Model Inner_Syntax Inner_Model
  Select_Model Whole_Syntax Cast_Syntax Cast_Where Whole_Model.
Open Scope Z_scope.

Section Collapse.
Variable frepr : spec_float -> text.
Variable ident : val -> val -> bool.
Variable ext : text -> option (list val -> val).
Variable lib : text -> list val -> val.
Variable str_of : val -> text.
Variable primary : option text.                      (* primary_table["outputer_primary_keys"][0] *)
Variable pick pick1 : list row -> row.
Variable nested : text -> row -> val.
Variable raw : list (text * state) -> val.
Variable state_name : path -> text.
Variable other : expr -> res hcol.
Variable rematch : text -> val -> bool.
Variable leK : val -> val -> bool.
Notation ev := (ev frepr ident ext lib).

(** compiler.py:1113-1121, 1141-1149: the column that becomes the aggregate. *)
Definition collapse_column (names : list text) : text :=
  match primary with
  | Some n => if memb n names then n else hd [] names
  | None => hd [] names
  end.
(** compiler.py:1152-1156: the key of DISTINCT. *)
Definition distinct_keys (cfg : config) : list key :=
  map (fun nc => match snd nc with GPlain q => KCol q | GAggr => KNested (fst nc) end) (g_schema cfg).
(** One row of the result for a group (1125-1138, 1157-1170). *)
Definition collapsed_row (cfg : config) (rs : list row) : output :=
  let alias := collapse_column (map fst (g_schema cfg)) in
  map (fun nc => (fst nc, match snd nc with
                          | GPlain q => ev (if text_eqb (fst nc) alias then pick1 rs else pick rs) q
                          | GAggr => VNone
                          end)) (g_schema cfg).

(** compiler.py:432-567 with the flag of DISTINCT. *)
Definition set_distinct (d : bool) (q : select row output) : select row output :=
  mkselect (s_schema _ _ q) (s_aggregate _ _ q) (s_columns _ _ q) (s_table _ _ q) (s_alias _ _ q) (s_select_columns _ _ q)
    (s_predicate _ _ q) (s_having _ _ q) (s_group _ _ q) d (s_order _ _ q) (s_limit _ _ q) (s_offset _ _ q).
Definition compile_collapsed (d : bool) (st : statement) : res plan :=
  let parts := where_parts frepr ident ext (st_where st) in
  do cfg <- compile_written state_name frepr ident ext (mkwritten (st_items st) (st_group st));
  do pred <- residual frepr ident ext cfg (fst parts);
  do hav <- match st_having st with
            | None => Ok None
            | Some e => do h <- having frepr ident ext (Some (map fst (g_schema cfg))) other e; Ok (Some h)
            end;
  do k <- compile_select row output (set_distinct d (select_by frepr ident ext lib rematch parts st cfg pred hav));
  Ok (mkplan cfg (snd parts) k).

Definition collapsed_by (cfg : config) (keys : list key) (rows : list row) : list output :=
  map (fun g => collapsed_row cfg (snd g)) (groups frepr ident ext lib nested keys rows).
(** Execution.  The key of GROUP BY is compiled after all items of the select list (1122, 1243-1281). *)
Definition run_collapsed (d : bool) (st : statement) (table : list row) : res (list output) :=
  do p <- compile_collapsed d st;
  let cfg := p_config p in
  let rows := loaded frepr ident ext lib leK p table in
  do outs <- match t_kind (p_task p) with
             | KPlain => Ok (map (plain_row frepr ident ext lib cfg) rows)
             | KComputed => run_query frepr ident ext lib str_of pick nested raw cfg rows
             | KGrouped => Ok (collapsed_by cfg (compile_keys frepr ident ext (g_schema cfg) (st_group st)) rows)
             | KDistinct => Ok (collapsed_by cfg (distinct_keys cfg) rows)
             end;
  Ok (fold_left (apply_pipeline output val leK field) (t_pipelines (p_task p)) (keep (t_having (p_task p)) outs)).
End Collapse.

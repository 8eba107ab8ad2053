(** Model of compile_select as a whole, for one table without alias: compiler.py:432-567, in the order of the clauses (the parts are
    modelled in Inner_Model / Group_Model, Where_Model, Having_Model and Select_Model), of the bookkeeping of primary_table["columns"] which
    joins them (670, 2289-2291 with their callers 688, 1264, 1296, 992, 1850, 1883) and of compile_where_condition_column (962-968, 991-995); and of the
    execution of the task so compiled (header of Select_Model).

    Not modelled: joins, windows, DISTINCT, GROUP BY without aggregates, SELECT *, subqueries, qualified columns, column names with a type in brackets
    (a name with a bar is not pushed to the source here). *)
From Coq Require Import SpecFloat.
From Verif Require Import Base PyVal Utils_Model Calc_Model Expr_Syntax Expr_Model Where_Model Having_Model Group_Syntax Group_Model Inner_Syntax Inner_Model
  Select_Model Whole_Syntax Cast_Syntax Cast_Where.
Open Scope Z_scope.

Definition output := list (text * val).
(** Reading a column of a result row. *)
Definition field (n : text) (o : output) : val := match assoc n o with Some v => v | None => VNone end.

(** compiler.py:1839-1861, 1873-1897: an operand that is not a column alone goes through parse_calculate. *)
Definition operand_columns (e : expr) : list text := match as_column e with Some _ => [] | None => columns e end.
(** The columns compile_having_condition adds to primary_table["columns"]; the list of IN is not searched (1863-1872). *)
Fixpoint having_columns (e : expr) : list text :=
  match e with
  | EAnd a b | EOr a b => having_columns a ++ having_columns b
  | EParen a => having_columns a
  | EBin _ a b | EIs a b => operand_columns a ++ operand_columns b
  | EIn a _ | ENot a | ENeg a | EBetween a _ _ | EIf a _ _ => operand_columns a
  | _ => []
  end.
(** compiler.py:1248-1264: a column of GROUP BY is not added, another expression is (by parse_calculate). *)
Definition key_columns (k : group_item) : list text := match k with KeyCol _ _ => [] | KeyExp e => operand_columns e end.
(** compiler.py:962-995: a condition that is a column alone is not added. *)
Definition residual_columns (r : option expr) : list text := match r with Some e => operand_columns e | None => [] end.

Section Whole.
Variable frepr : spec_float -> text.
Variable ident : val -> val -> bool.
Variable ext : text -> option (list val -> val).
Variable lib : text -> list val -> val.
Variable str_of : val -> text.
Variable pick : list row -> row.
Variable nested : text -> row -> val.
Variable raw : list (text * state) -> val.
Variable state_name : path -> text.
Variable other : expr -> res hcol.
Variable rematch : text -> val -> bool.
Variable leK : val -> val -> bool.
Notation compile := (compile frepr ident ext).
Notation ev := (ev frepr ident ext lib).

(** compiler.py:517-522: what is pushed to the source, and what remains of the condition. *)
Definition plain_name (n : text) : bool := negb (has_bar n).
Definition where_parts (w : option expr) : option expr * querys :=
  match w with
  | None => (None, [])
  | Some e => let '(_, r, q) := where_cast compile plain_name (fun n => n) e [] in (r, retype q)
  end.
(** compiler.py:962-968, 991-995: a column alone may name an item of the select list. *)
Definition residual (cfg : config) (r : option expr) : res (option valuer) :=
  match r with
  | None => Ok None
  | Some e => match as_column e with
              | Some n => match assoc n (g_schema cfg) with
                          | Some (GPlain q) => Ok (Some q)
                          | Some GAggr => Err OtherError               (* not modelled: an aggregate as a condition on rows *)
                          | None => Ok (Some (compile e))
                          end
              | None => Ok (Some (compile e))
              end
  end.
(** primary_table["columns"] when ORDER BY is reached. *)
Definition columns_by (parts : option expr * querys) (st : statement) (cfg : config) : list text :=
  flat_map (fun ne => columns (snd ne)) (st_items st) ++
  match g_agg cfg with [] => [] | _ => flat_map key_columns (st_group st) end ++
  residual_columns (fst parts) ++
  match st_having st with Some e => having_columns e | None => [] end.
Definition known_columns (st : statement) : config -> list text := columns_by (where_parts (st_where st)) st.
(** compiler.py:1833-1834, 1198: config["aggregate"] is there when an item uses aggregates or there is a HAVING. *)
Definition aggregate_part (st : statement) (cfg : config) : option (list text * list text) :=
  match g_agg cfg, st_having st with [], None => None | l, _ => Some (map fst l, []) end.

Record plan := mkplan { p_config : config; p_querys : querys; p_task : task row output }.

(** compiler.py:432-567. *)
Definition select_by (parts : option expr * querys) (st : statement) (cfg : config) (pred : option valuer) (hav : option hcol) : select row output :=
  mkselect (Some (map fst (g_schema cfg))) (aggregate_part st cfg) (columns_by parts st cfg) (t "t") None []
    (option_map (fun q r => truthy (ev r q)) pred)
    (option_map (fun h o => keeps frepr ident ext lib rematch h (fun n => field n o)) hav)
    (negb (is_nil (st_group st))) false
    (map (fun nd => OCol [] (fst nd) (snd nd)) (st_order st)) (st_limit st) (st_offset st).
Definition to_select (st : statement) := select_by (where_parts (st_where st)) st.
(** [parts]: what compile_where_condition makes of the WHERE clause. *)
Definition compile_by (parts : option expr * querys) (st : statement) : res plan :=
  do cfg <- compile_written state_name frepr ident ext (mkwritten (st_items st) (st_group st));
  do pred <- residual cfg (fst parts);
  do hav <- match st_having st with
            | None => Ok None
            | Some e => do h <- having frepr ident ext (Some (map fst (g_schema cfg))) other e; Ok (Some h)
            end;
  do k <- compile_select row output (select_by parts st cfg pred hav);
  Ok (mkplan cfg (snd parts) k).
Definition compile_statement (st : statement) : res plan := compile_by (where_parts (st_where st)) st.

(** ** Execution: the source keeps the rows satisfying the pushed conditions, sorts them and takes the first @limit; then as in [run_task]. *)
Definition plain_row (cfg : config) (r : row) : output :=
  map (fun nc => (fst nc, match snd nc with GPlain q => ev r q | GAggr => VNone end)) (g_schema cfg).
Definition loaded (p : plan) (table : list row) : list row :=
  keep (t_predicate (p_task p))
    (take (t_limit (p_task p))
       (sort (le_by val leK (fun n r => r n) (t_orders (p_task p)))
          (filter (fun r => source_keeps frepr ident ext lib r (p_querys p)) table))).
Definition run_plan (plan_ : res plan) (table : list row) : res (list output) :=
  do p <- plan_;
  do outs <- match t_kind (p_task p) with
             | KPlain => Ok (map (plain_row (p_config p)) (loaded p table))
             | KComputed => run_query frepr ident ext lib str_of pick nested raw (p_config p) (loaded p table)
             | _ => Err OtherError
             end;
  Ok (fold_left (apply_pipeline output val leK field) (t_pipelines (p_task p)) (keep (t_having (p_task p)) outs)).
Definition run_statement (st : statement) : list row -> res (list output) := run_plan (compile_statement st).
End Whole.

(** Model of compile_select as a whole when items of the select list are window functions: compiler.py:432-567 (the parts are modelled in Winq_Model,
    Where_Model, Having_Model and Select_Model), of the bookkeeping of primary_table["columns"] in 1349-1530 (through parse_calculate 2263-2306), and of
    the execution of the task so compiled (headers of Winq_Model and Select_Model; taskers/query.py:123-140, 296-366: the HAVING and the pipelines
    belong to the second task when there are final values, [split_task]).

    Not modelled: joins, GROUP BY and DISTINCT together with window functions, aggregates without OVER, SELECT *, a table alias, qualified columns. *)
From Coq Require Import SpecFloat.
From Verif Require Import Base PyVal Utils_Model Calc_Model Expr_Syntax Expr_Model Where_Model Having_Model Group_Syntax Group_Model Select_Model Whole_Model
  Winq_Syntax Winq_Model Winsel_Syntax.
Open Scope Z_scope.

(** compiler.py:1389-1394: what the keys (1430-1469) and the values (1480-1510) of one window function add to primary_table["columns"]. *)
Definition call_columns (windows : list (text * window)) (c : wcall) : list text :=
  match match w_name c with Some n => assoc n windows | None => Some (w_inline c) end with
  | Some w => flat_map key_columns (w_partition w) ++ flat_map (fun k => key_columns (fst k)) (w_order w)
  | None => []
  end ++
  match w_fun c with
  | WAgg a => match a_arg a with Some e => columns e | None => [] end
  | WNamed _ _ args => flat_map columns args
  end.
(** One item: 670, 687-688 and 1424-1429; the window functions inside an expression have a syncany_valuer and are not searched (2264). *)
Definition item_columns (windows : list (text * window)) (i : witem) : list text :=
  match i with
  | WConst _ => []
  | WCol n => [n]
  | WCalc e => columns e
  | WWin c => call_columns windows c
  | WExpr e holes => flat_map (fun h => call_columns windows (snd h)) holes ++ filter (fun n => negb (existsb (text_eqb n) (map fst holes))) (columns e)
  end.
(** compiler.py:1352-1354: the names in config["aggregate"]["window_schema"]. *)
Definition is_windowed (i : witem) : bool := match i with WWin _ | WExpr _ _ => true | _ => false end.
Definition window_names (items : list (text * witem)) : list text := map fst (filter (fun ai => is_windowed (snd ai)) items).

Section Winsel.
Variable frepr : spec_float -> text.
Variable ident : val -> val -> bool.
Variable ext : text -> option (list val -> val).
Variable lib : text -> list val -> val.
Variable known : text -> bool.
Variable str_of : val -> text.
Variable leK : val -> val -> bool.
Variable nested : text -> row -> val.
Variable fn : text -> list (list val * list val) -> nat -> val.
Variable other : expr -> res hcol.
Variable rematch : text -> val -> bool.

(** compiler.py:1352-1353, 1833-1834. *)
Definition waggregate_part (st : wstatement) : option (list text * list text) :=
  match window_names (wq_items (ws_query st)), ws_having st with [], None => None | l, _ => Some ([], l) end.
(** primary_table["columns"] when ORDER BY is reached. *)
Definition wcolumns (st : wstatement) : list text :=
  flat_map (fun ai => item_columns (parse_windows (wq_windows (ws_query st))) (snd ai)) (wq_items (ws_query st)) ++
  residual_columns (fst (where_parts frepr ident ext (ws_where st))) ++
  match ws_having st with Some e => having_columns e | None => [] end.

Definition to_wselect (st : wstatement) (cfg : wconfig) (pred : option valuer) (hav : option hcol) : select row output :=
  mkselect (Some (map fst (s_cols cfg))) (waggregate_part st) (wcolumns st) (t "t") None []
    (option_map (fun q r => truthy (ev frepr ident ext lib r q)) pred)
    (option_map (fun h o => keeps frepr ident ext lib rematch h (fun n => field n o)) hav)
    false false
    (map (fun nd => OCol [] (fst nd) (snd nd)) (ws_order st)) (ws_limit st) (ws_offset st).
(** compiler.py:432-567. *)
Definition compile_wstatement (st : wstatement) : res (wconfig * plan) :=
  do cfg <- wcompile frepr ident ext known (ws_query st);
  let view := mkconfig (erase (s_cols cfg)) [] [] in
  do pred <- residual frepr ident ext view (fst (where_parts frepr ident ext (ws_where st)));
  do hav <- match ws_having st with
            | None => Ok None
            | Some e => do h <- having frepr ident ext (Some (map fst (s_cols cfg))) other e; Ok (Some h)
            end;
  do k <- compile_select row output (to_wselect st cfg pred hav);
  Ok (cfg, mkplan view (snd (where_parts frepr ident ext (ws_where st))) k).
(** Execution. *)
Definition run_wstatement (st : wstatement) (table : list row) : res (list output) :=
  do cp <- compile_wstatement st;
  let (cfg, p) := (cp : wconfig * plan) in
  do outs <- match t_kind (p_task p) with
             | KPlain | KComputed => run_wquery frepr ident ext lib str_of leK nested fn cfg (loaded frepr ident ext lib leK p table)
             | _ => Err OtherError
             end;
  Ok (fold_left (apply_pipeline output val leK field) (t_pipelines (p_task p)) (keep (t_having (p_task p)) outs)).
End Winsel.

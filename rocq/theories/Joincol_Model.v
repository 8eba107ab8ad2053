(** Model of compile_select (compiler.py:386-580) for SELECT DISTINCT and for GROUP BY without aggregates over joined tables: the select list and the keys over
    joined tables (653-700, 1243-1281) as in Joingrp_Model, the column that becomes the aggregate and the keys (552-559, 1112-1170) as in Collapse_Model.

    Trusted reading of the external package and simplifications: as in Joingrp_Model and Collapse_Model. *)
From Coq Require Import SpecFloat.
From Verif Require Import Base PyVal Utils_Model Calc_Model Expr_Syntax Expr_Model Having_Model Group_Syntax Group_Model Inner_Syntax Inner_Model
  Whole_Syntax Whole_Model Collapse_Model Select_Model Joins_Syntax Joins_Model Joinsel_Model Joingrp_Syntax Joingrp_Model.
Open Scope Z_scope.

Section Joincol.
Variable cmpv : cmp -> val -> val -> bool.
Variable frepr : spec_float -> text.
Variable ident : val -> val -> bool.
Variable ext : text -> option (list val -> val).
Variable lib : text -> list val -> val.
Variable primary : option text.                      (* primary_table["outputer_primary_keys"][0], compiler.py:676-685, 700-710 *)
Variable pick pick1 : list Group_Model.row -> Group_Model.row.
Variable nested : text -> Group_Model.row -> val.
Variable state_name : path -> text.
Variable other : expr -> res hcol.
Variable rematch : text -> val -> bool.
Variable leK : val -> val -> bool.
Variable d : db.

(** compiler.py:432-567 with the flag of DISTINCT. *)
Definition collapse_select (distinct aliased : bool) (p : text) (q : Joins_Syntax.query) (st : statement) (cfg : config) (hav : option hcol) : select env output :=
  mkselect (Some (map fst (g_schema cfg))) (aggregate_part st cfg) (primary_names cmpv p q st) p (if aliased then Some p else None) []
    (predicate cmpv p (qwhere q))
    (option_map (fun h o => keeps frepr ident ext lib rematch h (fun n => Whole_Model.field n o)) hav)
    (negb (is_nil (st_group st))) distinct
    (map (fun nd => Select_Model.OCol [] (fst nd) (snd nd)) (st_order st)) (st_limit st) (st_offset st).

(** compiler.py:386-580. The rows of the source are cut by @limit before they are joined and collapsed. *)
Definition run_collapse_compiled (distinct aliased : bool) (st : statement) (q : Joins_Syntax.query) : res (list output) :=
  match qfrom q with
  | [p] =>
    do _ <- run_joins cmpv d p (qjoins q) [];            (* every ON is parsed *)
    let need := tables_of (map named (items_read st) ++ flat_map acolumns (Joinsel_Model.residual cmpv p (qwhere q))) in
    if known_tables p (qjoins q) need then
      do cfg <- compile_written state_name frepr ident ext (mkwritten (st_items st) (st_group st));
      do hav <- match st_having st with
                | None => Ok None
                | Some e => do h <- having frepr ident ext (Some (map fst (g_schema cfg))) other e; Ok (Some h)
                end;
      do k <- compile_select env output (collapse_select distinct aliased p q st cfg hav);
      let source := take (t_limit k) (sort (le_by val leK Joinsel_Model.cell (t_orders k)) (filter (meets cmpv p (qwhere q)) (d p))) in
      do es <- run_joins cmpv d p (fst (needed_joins need (qjoins q))) (map (fun r => [(p, Some r)]) source);
      let rows := map (read p) (keep (t_predicate k) es) in
      do outs <- match t_kind k with
                 | KGrouped => Ok (collapsed_by frepr ident ext lib primary pick pick1 nested cfg (compile_keys frepr ident ext (g_schema cfg) (st_group st)) rows)
                 | KDistinct => Ok (collapsed_by frepr ident ext lib primary pick pick1 nested cfg (distinct_keys cfg) rows)
                 | _ => Err OtherError                   (* aggregates: Joingrp_Model; neither: Joinsel_Model *)
                 end;
      Ok (fold_left (apply_pipeline output val leK Whole_Model.field) (t_pipelines k) (keep (t_having k) outs))
    else Err CompileError
  | _ => Err CompileError
  end.

(** [None]: the compiler does not return. *)
Definition run_joincol (fuel : nat) (distinct aliased : bool) (g : jgroup) : option (res (list output)) :=
  match optimize fuel (g_from g) with None => None | Some q => Some (run_collapse_compiled distinct aliased (g_rest g) q) end.
End Joincol.

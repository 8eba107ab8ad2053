(** Model of compile_select (compiler.py:386-580) for a SELECT with aggregates over joined tables: compile_aggregate_key, compile_aggregate_value
    and the plain items over joined tables (1172-1314, 653-700), the joins they need (712-731), WHERE as in Joinsel_Model, HAVING as in Having_Model, ORDER
    BY, LIMIT and OFFSET as in Select_Model.

    Trusted reading of the external package: as in Joinsel_Model for the source and the joins, as in Group_Model for the groups; the select list,
    the group key and the arguments of the aggregates are computed on each combination.
    Simplifications: as in Joins_Model, Joinsel_Model and Group_Model; names of ORDER BY are written without a table. An expression around aggregates
    that reads columns outside them is compiled as over one table (its columns with a table name are not claimed: [plain_written]). *)
From Coq Require Import SpecFloat.
From Verif Require Import Base PyVal Utils_Model Calc_Model Expr_Syntax Expr_Model Having_Model Group_Syntax Group_Model Inner_Syntax Inner_Model
  Whole_Syntax Whole_Model Select_Model Joins_Syntax Joins_Model Joinsel_Model Joingrp_Syntax.
Open Scope Z_scope.

Section Joingrp.
Variable cmpv : cmp -> val -> val -> bool.
Variable frepr : spec_float -> text.
Variable ident : val -> val -> bool.
Variable ext : text -> option (list val -> val).
Variable lib : text -> list val -> val.
Variable str_of : val -> text.
Variable pick : list Group_Model.row -> Group_Model.row.
Variable nested : text -> Group_Model.row -> val.
Variable raw : list (text * state) -> val.
Variable state_name : path -> text.
Variable other : expr -> res hcol.
Variable rematch : text -> val -> bool.
Variable leK : val -> val -> bool.
Variable d : db.

(** A column of the combination: compiler.py:2621-2700 parse_column, 653-672. *)
Definition read (p : text) (e : env) (n : text) : val := get_col p e (named n).

(** compiler.py:1243-1281, 1283-1314, 674-697: the columns a key or an item reads. *)
Definition key_reads (k : group_item) : list text := match k with KeyCol _ n => [n] | KeyExp e => columns e end.
Definition items_read (st : statement) : list text := flat_map (fun ne => columns (snd ne)) (st_items st) ++ flat_map key_reads (st_group st).
(** compiler.py:670, 2289-2291: the names of the columns of the primary table among those that are compiled; ON conditions (parse_calculate in
    parse_on_condition, 2085-2260) included.  Simplification: every column of ON counts, also the columns alone, which the code registers only when they
    stand inside an expression (the claims are about names that no ON uses). *)
Definition registered (p : text) (cs : list col) : list text := map cname (filter (of_primary p) cs).
Definition primary_names (p : text) (q : Joins_Syntax.query) (st : statement) : list text :=
  registered p (map named (flat_map (fun ne => columns (snd ne)) (st_items st) ++ flat_map key_columns (st_group st) ++
                           match st_having st with Some e => having_columns e | None => [] end) ++
                flat_map acolumns (Joinsel_Model.residual cmpv p (qwhere q)) ++ flat_map (fun j => flat_map acolumns (jon j)) (qjoins q)).

(** compiler.py:432-567. *)
Definition group_select (aliased : bool) (p : text) (q : Joins_Syntax.query) (st : statement) (cfg : config) (hav : option hcol) : select env output :=
  mkselect (Some (map fst (g_schema cfg))) (aggregate_part st cfg) (primary_names p q st) p (if aliased then Some p else None) []
    (predicate cmpv p (qwhere q))
    (option_map (fun h o => keeps frepr ident ext lib rematch h (fun n => Whole_Model.field n o)) hav)
    (negb (is_nil (st_group st))) false
    (map (fun nd => Select_Model.OCol [] (fst nd) (snd nd)) (st_order st)) (st_limit st) (st_offset st).

Definition run_group_compiled (aliased : bool) (st : statement) (q : Joins_Syntax.query) : res (list output) :=
  match qfrom q with
  | [p] =>
    do _ <- run_joins cmpv d p (qjoins q) [];            (* every ON is parsed *)
    let need := tables_of (map named (items_read st) ++ flat_map acolumns (Joinsel_Model.residual cmpv p (qwhere q))) in
    if known_tables p (qjoins q) need then
      do cfg <- compile_written state_name frepr ident ext (mkwritten (st_items st) (st_group st));
      do hav <- match st_having st with
                | None => Ok None
                | Some e => do h <- having frepr ident ext (Some (map fst (g_schema cfg))) other e; Ok (Some h)
                end;
      do k <- compile_select env output (group_select aliased p q st cfg hav);
      let source := take (t_limit k) (sort (le_by val leK Joinsel_Model.cell (t_orders k)) (filter (meets cmpv p (qwhere q)) (d p))) in
      do es <- run_joins cmpv d p (fst (needed_joins need (qjoins q))) (map (fun r => [(p, Some r)]) source);
      do outs <- match t_kind k with
                 | KComputed => Group_Model.run_query frepr ident ext lib str_of pick nested raw cfg (map (read p) (keep (t_predicate k) es))
                 | _ => Err OtherError                   (* without aggregates: Joinsel_Model *)
                 end;
      Ok (fold_left (apply_pipeline output val leK Whole_Model.field) (t_pipelines k) (keep (t_having k) outs))
    else Err CompileError
  | _ => Err CompileError
  end.

(** [None]: the compiler does not return. *)
Definition run_joingrp (fuel : nat) (aliased : bool) (g : jgroup) : option (res (list output)) :=
  match optimize fuel (g_from g) with None => None | Some q => Some (run_group_compiled aliased (g_rest g) q) end.
End Joingrp.

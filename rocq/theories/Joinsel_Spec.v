(** What SQL says about [SELECT ... FROM ... JOIN ... WHERE ... ORDER BY ... LIMIT ... OFFSET ...], over Joins_Spec. *)
From Verif Require Import Base PyVal Joins_Syntax Joins_Spec Joinsel_Syntax Select_Spec.
Open Scope Z_scope.

Section Spec.
Variable cmpv : cmp -> val -> val -> bool.
Variable leK : val -> val -> bool.            (* the order of values *)
Variable p : text.                            (* the first FROM table *)

(** The row of the result made from a combination. *)
Definition result_row (items : list (text * operand)) (e : env) : list (text * val) :=
  map (fun it => (fst it, oval p e (snd it))) items.
(** An ORDER BY column: of its table; without a table, the select item of that name, otherwise a column of the first table. *)
Definition order_value (items : list (text * operand)) (c : col) (e : env) : val :=
  match ctab c with
  | Some _ => cval p e c
  | None => match assoc (cname c) items with Some o => oval p e o | None => cval p e c end
  end.
Definition order_of (st : jselect) : env -> env -> bool :=
  lex_le leK (map (fun k => (order_value (j_items st) (fst k), snd k)) (j_order st)).
(** Rows offset+1 .. offset+limit. *)
Definition paged {A} (limit offset : option Z) (l : list A) : list A :=
  let rest := match offset with Some o => skipn (Z.to_nat o) l | None => l end in
  match limit with Some n => firstn (Z.to_nat n) rest | None => rest end.

(** [out] answers [st]: the page of the combinations SQL joins and WHERE keeps, sorted by ORDER BY (equal keys in the order of the
    joins). *)
Definition answers (d : db) (st : jselect) (out : list (list (text * val))) : Prop :=
  exists es, sorted_as (order_of st) (sql_query cmpv p d (j_query st)) es /\
             out = paged (j_limit st) (j_offset st) (map (result_row (j_items st)) es).

(** The tables an operand reads. *)
Definition operand_reads (tb : text) (o : operand) : Prop := exists c, In c (ocols o) /\ ctab c = Some tb.
(** Every table of [ts] is read by an item of the select list. *)
Definition all_selected (ts : list text) (st : jselect) : Prop :=
  forall tb, In tb ts -> exists n o, In (n, o) (j_items st) /\ operand_reads tb o.
(** The names of the columns of the first table in the select list. *)
Definition selected_names (st : jselect) : list text :=
  map cname (filter (fun c => match ctab c with Some tb => text_eqb tb p | None => true end) (flat_map (fun it => ocols (snd it)) (j_items st))).

(** ORDER BY means one thing: a column whose bare name is also the name of a select item either is that item, or has no table name
    before it while the first table has an alias or no column of that name is selected. *)
Definition clear_order (aliased : bool) (st : jselect) : Prop :=
  forall c desc o, In (c, desc) (j_order st) -> In (cname c, o) (j_items st) ->
    (forall e, oval p e o = cval p e c) \/ (ctab c = None /\ (aliased = true \/ ~ In (cname c) (selected_names st))).

(** A condition compares a column of the first table with a constant or a list of constants. *)
Definition on_first (a : atom) : bool :=
  let first o := match o with OCol c => match ctab c with Some tb => text_eqb tb p | None => true end | OExpr _ _ => false end in
  let constant o := match o with OExpr [] _ => true | _ => false end in
  match a with
  | ACmp _ l r => first l && constant r || first r && constant l
  | AIn l _ => first l
  | AOther _ _ => false
  end.
(** No constant stands before a column in a comparison other than equality. *)
Definition upright (a : atom) : Prop :=
  match a with ACmp o (OExpr [] _) (OCol _) => o = CEq | _ => True end.

(** Each combination meets at most one row of each joined table. *)
Definition single_match (d : db) (js : list join) : Prop :=
  forall j e, In j js -> (length (matches cmpv p d (jtab j) (jon j) e) <= 1)%nat.
End Spec.

(** What SELECT DISTINCT and SELECT with GROUP BY but without aggregates return, independent of the compiler. *)
From Coq Require Import Permutation Sorting.Sorted.
From Verif Require Import Base PyVal Expr_Syntax Expr_Spec Reduce_Spec Group_Syntax Inner_Syntax Inner_Spec Select_Spec Whole_Syntax Cast_Syntax Whole_Spec.

Section Meaning.
Variable tt : text -> bool.
Variable fn : text -> list val -> val.
Variable leK : val -> val -> bool.                     (* the order of values *)
Variable same : list val -> list val -> bool.          (* equality of keys *)
Let value := sem tt fn.

(** An item of GROUP BY: a name is the item of that name, or else a column of the table; a qualified name is a column of the table. *)
Definition name_value (st : statement) (r : text -> val) (k : group_item) : val :=
  match k with
  | KeyCol true n => r n
  | KeyCol false n => match assoc n (st_items st) with Some e => value r e | None => r n end
  | KeyExp e => value r e
  end.
Definition bare_key (st : statement) (r : text -> val) : list val := map (name_value st r) (st_group st).
(** The values of all items. *)
Definition item_values (st : statement) (r : text -> val) : list val := map (fun ne => value r (snd ne)) (st_items st).

(** One row for each key on [rows], in the order in which the keys first appear; the value of each item is that of a row with this key. *)
Definition collapsed_rows (key : (text -> val) -> list val) (st : statement) (rows : list (text -> val)) (grows : list (list (text * val))) : Prop :=
  let keyed := map (fun r => (key r, r)) rows in
  Forall2 (fun k o => Forall2 (fun ne nv => fst nv = fst ne /\ exists r, In r (members same keyed k) /\ snd nv = value r (snd ne)) (st_items st) o)
    (keys same keyed) grows.
(** As [grouped_result] of Whole_Spec. *)
Definition collapsed_result (key : (text -> val) -> list val) (st : statement) (table : list (text -> val)) (out : list (list (text * val))) : Prop :=
  exists rows grows sorted,
    Permutation (filter (holds tt fn (st_where st)) table) rows /\
    collapsed_rows key st rows grows /\
    Permutation (filter (fun o => holds tt fn (st_having st) (column o)) grows) sorted /\
    StronglySorted (fun x y => lex_le leK (map (fun nd => ((fun o => column o (fst nd)), snd nd)) (st_order st)) x y = true) sorted /\
    (st_order st = [] -> rows = filter (holds tt fn (st_where st)) table /\ sorted = filter (fun o => holds tt fn (st_having st) (column o)) grows) /\
    out = paged (st_limit st) (st_offset st) sorted.

(** ** The statements for which the claim is made *)
(** No aggregates; a LIMIT only together with a HAVING (C138). *)
Definition collapsing_body (st : statement) : Prop :=
  st_items st <> [] /\ NoDup (map fst (st_items st)) /\
  Forall (fun ne => exact (snd ne) /\ ~ uses_aggregate (snd ne) /\ forall v, snd ne <> ENeg (EConst v)) (st_items st) /\
  plain_where tt fn (st_where st) /\ plain_having st /\ plain_limit (st_limit st) /\ (st_limit st = None \/ st_having st <> None).
(** GROUP BY: the names in ORDER BY are items: columns of GROUP BY under their own name, or items under names not used otherwise. *)
Definition bare_group_statement (st : statement) : Prop :=
  collapsing_body st /\ st_group st <> [] /\
  Forall (fun k => match k with
                   | KeyCol _ _ => True
                   | KeyExp e => exact e /\ forall n, cast_column e = Some n -> ~ In n (map fst (st_items st))
                   end) (st_group st) /\
  Forall (fun nd => exists e, In (fst nd, e) (st_items st) /\
    ((e = ECol (fst nd) /\ exists q, In (KeyCol q (fst nd)) (st_group st)) \/ ~ used st (fst nd))) (st_order st).
(** DISTINCT: the names in ORDER BY are items: columns under their own name, or items under names not used otherwise. *)
Definition distinct_statement (st : statement) : Prop :=
  collapsing_body st /\ st_group st = [] /\
  Forall (fun nd => exists e, In (fst nd, e) (st_items st) /\ (e = ECol (fst nd) \/ ~ used st (fst nd))) (st_order st).
(** The keys of the rows kept by WHERE are equal to themselves (they have no NaN). *)
Definition proper_keys (key : (text -> val) -> list val) (st : statement) (table : list (text -> val)) : Prop :=
  forall r, In r table -> holds tt fn (st_where st) r = true -> same (key r) (key r) = true.
End Meaning.

(** What a SELECT statement over one table returns, independent of the compiler. *)
From Coq Require Import Permutation Sorting.Sorted.
From Verif Require Import Base PyVal Expr_Syntax Expr_Spec Having_Spec Agg_Spec Reduce_Spec Group_Syntax Group_Spec Inner_Syntax Inner_Spec Select_Spec Where_Spec Whole_Syntax Cast_Syntax Cast_Spec.

Section Meaning.
Variable tt : text -> bool.                            (* a text used as a condition *)
Variable fn : text -> list val -> val.                 (* the SQL functions and operators *)
Variable str_of : val -> text.
Variable leK : val -> val -> bool.                     (* the order of values *)
Variable same : list val -> list val -> bool.          (* equality of GROUP BY keys *)
Let value := sem tt fn.

(** An absent condition holds; another one holds when it is TRUE, not when it is FALSE or NULL. *)
Definition holds (c : option expr) (r : text -> val) : bool :=
  match c with None => true | Some e => match truth tt (value r e) with Some true => true | _ => false end end.
(** A result row, and one of its columns. *)
Definition column (o : list (text * val)) (n : text) : val := match assoc n o with Some v => v | None => VNone end.
Definition paged {A} (limit offset : option Z) (l : list A) : list A :=
  let rest := match offset with Some o => skipn (Z.to_nat o) l | None => l end in
  match limit with Some n => firstn (Z.to_nat n) rest | None => rest end.

(** ** Without aggregates *)
(** A name in ORDER BY is the item of that name, or a column of the table. *)
Definition order_value (st : statement) (n : text) (r : text -> val) : val :=
  match assoc n (st_items st) with Some e => value r e | None => r n end.
Definition result_row (st : statement) (r : text -> val) : list (text * val) := map (fun ne => (fst ne, value r (snd ne))) (st_items st).
Definition plain_result (st : statement) (table : list (text -> val)) (out : list (list (text * val))) : Prop :=
  exists rows,
    sorted_as (lex_le leK (map (fun nd => (order_value st (fst nd), snd nd)) (st_order st))) (filter (holds (st_where st)) table) rows /\
    out = paged (st_limit st) (st_offset st) (filter (fun o => holds (st_having st) (column o)) (map (result_row st) rows)).

(** ** With aggregates *)
Definition key_of (st : statement) (r : text -> val) : list val := map (group_value value r) (st_group st).
(** The rows [grows], one for each group of [rows], in the order in which the groups first appear. *)
Definition group_rows (st : statement) (rows : list (text -> val)) (grows : list (list (text * val))) : Prop :=
  let keyed := map (fun r => (key_of st r, r)) rows in
  Forall2 (fun k o => exists r, In r (members same keyed k) /\
      Forall2 (fun ne nv => fst nv = fst ne /\ expression_value str_of value (members same keyed k) r (snd ne) (snd nv)) (st_items st) o)
    (keys same keyed) grows.
Definition grouped_result (st : statement) (table : list (text -> val)) (out : list (list (text * val))) : Prop :=
  exists rows grows sorted,
    Permutation (filter (holds (st_where st)) table) rows /\
    group_rows st rows grows /\
    Permutation (filter (fun o => holds (st_having st) (column o)) grows) sorted /\
    StronglySorted (fun x y => lex_le leK (map (fun nd => ((fun o => column o (fst nd)), snd nd)) (st_order st)) x y = true) sorted /\
    (st_order st = [] -> rows = filter (holds (st_where st)) table /\ sorted = filter (fun o => holds (st_having st) (column o)) grows) /\
    out = paged (st_limit st) (st_offset st) sorted.

(** ** The statements for which the claim is made *)
(** The operands of the comparisons in HAVING. *)
Inductive operand_in (x : expr) : expr -> Prop :=
| O_and a b : operand_in x a \/ operand_in x b -> operand_in x (EAnd a b)
| O_or a b : operand_in x a \/ operand_in x b -> operand_in x (EOr a b)
| O_paren a : operand_in x a -> operand_in x (EParen a)
| O_bin k a b : x = a \/ x = b -> operand_in x (EBin k a b)
| O_is a b : x = a \/ x = b -> operand_in x (EIs a b)
| O_in a l : x = a -> operand_in x (EIn a l)
| O_not a : x = a -> operand_in x (ENot a).
(** The name [n] is used as a column: in an item, in WHERE, inside a calculation of HAVING or of GROUP BY. *)
Definition used (st : statement) (n : text) : Prop :=
  (exists m e, In (m, e) (st_items st) /\ mentions n e) \/
  (exists e, st_where st = Some e /\ mentions n e) \/
  (exists e x, st_having st = Some e /\ operand_in x e /\ x <> ECol n /\ mentions n x) \/
  (exists e, In (KeyExp e) (st_group st) /\ mentions n e).

Definition plain_where (w : option expr) : Prop :=
  forall e, w = Some e -> cond e /\ top_level (fun x => column_left x /\ constant_items value x /\ ~ cast_compared x) e.
Definition plain_having (st : statement) : Prop :=
  forall e, st_having st = Some e -> hcond e /\ forall n, mentions n e -> In n (map fst (st_items st)).
Definition plain_limit (l : option Z) : Prop := forall n, l = Some n -> (0 < n)%Z.

(** Without aggregates, whatever ORDER BY. *)
Definition plain_body (st : statement) : Prop :=
  NoDup (map fst (st_items st)) /\
  Forall (fun ne => exact (snd ne) /\ ~ uses_aggregate (snd ne) /\ forall v, snd ne <> ENeg (EConst v)) (st_items st) /\
  st_group st = [] /\ plain_where (st_where st) /\ plain_having st /\ plain_limit (st_limit st).
(** Without aggregates: the names in ORDER BY are all items, each either a column under its own name or under a name not used otherwise; or all columns
    of the table. *)
Definition plain_statement (st : statement) : Prop :=
  NoDup (map fst (st_items st)) /\
  Forall (fun ne => exact (snd ne) /\ ~ uses_aggregate (snd ne) /\ forall v, snd ne <> ENeg (EConst v)) (st_items st) /\
  st_group st = [] /\ plain_where (st_where st) /\ plain_having st /\ plain_limit (st_limit st) /\
  (Forall (fun nd => exists e, In (fst nd, e) (st_items st) /\ (e = ECol (fst nd) \/ ~ used st (fst nd))) (st_order st) \/
   Forall (fun nd => forall e, In (fst nd, e) (st_items st) -> e = ECol (fst nd)) (st_order st)).
(** The name [n] is used in an item, or inside a calculation of HAVING (CAST of a column is not one). *)
Definition calculated_with (st : statement) (n : text) : Prop :=
  (exists m e, In (m, e) (st_items st) /\ mentions n e) \/
  (exists e x, st_having st = Some e /\ operand_in x e /\ x <> ECol n /\ cast_column x = None /\ mentions n x).

(** With aggregates: the names in ORDER BY are items: aggregates, columns of GROUP BY under their own names, or other items under names not used otherwise. *)
Definition grouped_statement (st : statement) : Prop :=
  plain_written (mkwritten (st_items st) (st_group st)) /\
  plain_where (st_where st) /\ plain_having st /\ plain_limit (st_limit st) /\
  Forall (fun nd => exists e, In (fst nd, e) (st_items st) /\
    ((e = ECol (fst nd) /\ exists q, In (KeyCol q (fst nd)) (st_group st)) \/ uses_aggregate e \/ ~ used st (fst nd))) (st_order st).
(** Every row kept by WHERE has a key equal to itself, and the values of every aggregate on its group can be aggregated. *)
Definition summable_groups (st : statement) (table : list (text -> val)) : Prop :=
  let rows := filter (holds (st_where st)) table in
  forall r, In r rows -> same (key_of st r) (key_of st r) = true /\
    forall m e x a, In (m, e) (st_items st) -> part x e -> as_aggregate x = Some a ->
      summable (a_fun a) (a_distinct a) (argument value a (filter (fun x => same (key_of st r) (key_of st x)) rows)).
End Meaning.

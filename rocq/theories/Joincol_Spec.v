(** What SELECT DISTINCT and GROUP BY without aggregates over joined tables return: that of Collapse_Spec over the one table made of the joined rows. *)
From Verif Require Import Base PyVal Expr_Syntax Expr_Spec Having_Spec Group_Syntax Group_Spec Inner_Syntax Inner_Spec Whole_Syntax Cast_Syntax Whole_Spec Collapse_Spec
  Joins_Syntax Joins_Spec Joingrp_Syntax Joingrp_Spec.

Section Spec.
Variable p : text.                                     (* the first FROM table *)

(** As [collapsing_body] of Collapse_Spec; WHERE belongs to the joins; no item has a name with a dot. *)
Definition collapsing_over (g : jgroup) : Prop :=
  let st := g_rest g in
  st_where st = None /\ st_items st <> [] /\ NoDup (map fst (st_items st)) /\
  Forall (fun ne => exact (snd ne) /\ ~ uses_aggregate (snd ne) /\ forall v, snd ne <> ENeg (EConst v)) (st_items st) /\
  plain_having st /\ plain_limit (st_limit st) /\ (st_limit st = None \/ st_having st <> None) /\
  (forall n, In n (map fst (st_items st)) -> last_dot n = None).
(** GROUP BY: the names in ORDER BY are items: columns of the first table that are in GROUP BY, under their own name, or items under names which are not used
    columns of the first table. *)
Definition bare_group_over (g : jgroup) : Prop :=
  let st := g_rest g in
  collapsing_over g /\ st_group st <> [] /\
  Forall (fun k => match k with
                   | KeyCol _ _ => True
                   | KeyExp e => exact e /\ forall n, cast_column e = Some n -> ~ In n (map fst (st_items st))
                   end) (st_group st) /\
  Forall (fun nd => exists e, In (fst nd, e) (st_items st) /\
    ((exists m b, e = ECol m /\ is_first p (named m) (fst nd) /\ In (KeyCol b m) (st_group st)) \/ ~ used_first p g (fst nd))) (st_order st).
(** DISTINCT: the names in ORDER BY are items: columns of the first table under their own name, or items under names which are not used columns of the first table. *)
Definition distinct_over (g : jgroup) : Prop :=
  let st := g_rest g in
  collapsing_over g /\ st_group st = [] /\
  Forall (fun nd => exists e, In (fst nd, e) (st_items st) /\ ((exists m, e = ECol m /\ is_first p (named m) (fst nd)) \/ ~ used_first p g (fst nd))) (st_order st).
End Spec.

(** The value of an item of the select list that uses aggregates, independent of the compiler: every aggregate call written in it is replaced by the
    value of the aggregate, and the expression so obtained is computed. *)
From Verif Require Import Base PyVal Expr_Syntax Expr_Spec Having_Spec Agg_Spec Group_Syntax Cast_Syntax Group_Spec Inner_Syntax.

(** Both absent, or both there and related. *)
Inductive both {A} (R : A -> A -> Prop) : option A -> option A -> Prop :=
| Both_absent : both R None None
| Both_there x y : R x y -> both R (Some x) (Some y).

(** [filled V e e']: e' is e with each aggregate call replaced by a constant which is a value of the aggregate in the sense of V. *)
Inductive filled (V : aggregate -> val -> Prop) : expr -> expr -> Prop :=
| F_agg e a v : as_aggregate e = Some a -> V a v -> filled V e (EConst v)
| F_const v : filled V (EConst v) (EConst v)
| F_col n : filled V (ECol n) (ECol n)
| F_paren a a' : filled V a a' -> filled V (EParen a) (EParen a')
| F_neg a a' : filled V a a' -> filled V (ENeg a) (ENeg a')
| F_not a a' : filled V a a' -> filled V (ENot a) (ENot a')
| F_and a a' b b' : filled V a a' -> filled V b b' -> filled V (EAnd a b) (EAnd a' b')
| F_or a a' b b' : filled V a a' -> filled V b b' -> filled V (EOr a b) (EOr a' b')
| F_is a a' b b' : filled V a a' -> filled V b b' -> filled V (EIs a b) (EIs a' b')
| F_bin k a a' b b' : filled V a a' -> filled V b b' -> filled V (EBin k a b) (EBin k a' b')
| F_in a a' l l' : filled V a a' -> Forall2 (filled V) l l' -> filled V (EIn a l) (EIn a' l')
| F_between a a' b b' c c' : filled V a a' -> filled V b b' -> filled V c c' -> filled V (EBetween a b c) (EBetween a' b' c')
| F_if a a' b b' c c' : filled V a a' -> filled V b b' -> both (filled V) c c' -> filled V (EIf a b c) (EIf a' b' c')
| F_ifnull a a' b b' : filled V a a' -> filled V b b' -> filled V (EIfNull a b) (EIfNull a' b')
| F_coalesce a a' l l' : filled V a a' -> Forall2 (filled V) l l' -> filled V (ECoalesce a l) (ECoalesce a' l')
| F_case o o' ifs ifs' els els' :
    both (filled V) o o' ->
    Forall2 (fun x y => filled V (fst x) (fst y) /\ filled V (snd x) (snd y)) ifs ifs' ->
    both (filled V) els els' ->
    filled V (ECase o ifs els) (ECase o' ifs' els')
| F_fun k l l' : as_aggregate (EFun k l) = None -> Forall2 (filled V) l l' -> filled V (EFun k l) (EFun k l').

(** The parts of an expression. *)
Inductive part (x : expr) : expr -> Prop :=
| P_self : part x x
| P_paren a : part x a -> part x (EParen a)
| P_neg a : part x a -> part x (ENeg a)
| P_not a : part x a -> part x (ENot a)
| P_and a b : part x a \/ part x b -> part x (EAnd a b)
| P_or a b : part x a \/ part x b -> part x (EOr a b)
| P_is a b : part x a \/ part x b -> part x (EIs a b)
| P_bin k a b : part x a \/ part x b -> part x (EBin k a b)
| P_in a l : part x a \/ (exists y, In y l /\ part x y) -> part x (EIn a l)
| P_between a b c : part x a \/ part x b \/ part x c -> part x (EBetween a b c)
| P_if a b : part x a \/ part x b -> part x (EIf a b None)
| P_if_else a b c : part x a \/ part x b \/ part x c -> part x (EIf a b (Some c))
| P_ifnull a b : part x a \/ part x b -> part x (EIfNull a b)
| P_coalesce a l : part x a \/ (exists y, In y l /\ part x y) -> part x (ECoalesce a l)
| P_case_of e ifs els : part x e -> part x (ECase (Some e) ifs els)
| P_case_when o ifs els w y : In (w, y) ifs -> part x w \/ part x y -> part x (ECase o ifs els)
| P_case_else o ifs e : part x e -> part x (ECase o ifs (Some e))
| P_fun k l y : In y l -> part x y -> part x (EFun k l).

(** No aggregate inside the argument of an aggregate. *)
Definition not_nested (e : expr) : Prop :=
  forall x a y z b, part x e -> as_aggregate x = Some a -> a_arg a = Some y -> part z y -> as_aggregate z = Some b -> False.
Definition uses_aggregate (e : expr) : Prop := exists x a, part x e /\ as_aggregate x = Some a.
(** Column [n] is used outside the aggregates. *)
Definition outside (n : text) (e : expr) : Prop := exists e', filled (fun _ _ => True) e e' /\ mentions n e'.

Section Value.
Variable str_of : val -> text.
Variable value : (text -> val) -> expr -> val.
(** [v] is a value of [e] for the group [rows], the columns outside the aggregates being read from the row [r]. *)
Definition expression_value (rows : list (text -> val)) (r : text -> val) (e : expr) (v : val) : Prop :=
  exists e', filled (fun a x => aggregate_value str_of (a_fun a) (a_distinct a) (argument value a rows) x) e e' /\ v = value r e'.
Definition written_key (w : written) (r : text -> val) : list val := map (group_value value r) (w_group w).
End Value.

(** ** The queries for which the claim is made *)
(** DISTINCT and the star only in COUNT; the item no negated constant; an expression around aggregates uses outside them only columns which are
    items under their own name. *)
Definition plain_written (w : written) : Prop :=
  NoDup (map fst (w_items w)) /\
  Forall (fun k => match k with
                   | KeyCol true _ => True
                   | KeyCol false n => forall e, In (n, e) (w_items w) -> e = ECol n
                   | KeyExp e => exact e /\ forall n, cast_column e = Some n -> ~ In n (map fst (w_items w))
                   end) (w_group w) /\
  Forall (fun ne => let e := snd ne in exact e /\ not_nested e /\ (forall v, e <> ENeg (EConst v)) /\
    (forall x a, part x e -> as_aggregate x = Some a -> (a_distinct a = true -> a_fun a = FCount) /\ (a_arg a = None -> a_fun a = FCount)) /\
    (uses_aggregate e -> as_aggregate e = None -> forall n, outside n e -> In (n, ECol n) (w_items w))) (w_items w) /\
  Exists (fun ne => uses_aggregate (snd ne)) (w_items w).

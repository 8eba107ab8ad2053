(** C59, C60: aggregates and GROUP BY. *)
From Coq Require Import SpecFloat.
From Verif Require Import Base PyVal Utils_Model Calc_Model Agg_Model Agg_Spec Agg_Proofs Reduce_Spec Joins_Proofs
  Expr_Syntax Expr_Model Expr_Spec Expr_Proofs Expr_Props Having_Spec Having_Model Having_Proofs Group_Syntax Group_Model Group_Spec Group_Proofs.
Open Scope Z_scope.

(** Equality of group keys: as many values, equal one by one. *)
Definition equal_keys (a b : list val) : bool := (length a =? length b)%nat && forallb (fun xy => pyeq (fst xy) (snd xy)) (combine a b).
Lemma equal_keys_same : forall a b, equal_keys a b = same_key a b.
Proof.
  unfold equal_keys. induction a as [|x a IH]; intros [|y b]; try reflexivity. cbn [length Nat.eqb combine forallb fst snd same_key].
  rewrite <- IH. destruct (pyeq x y); [|rewrite andb_false_r; reflexivity]. reflexivity.
Qed.

Lemma Forall2_weaken : forall A B (P Q : A -> B -> Prop), (forall a b, P a b -> Q a b) -> forall l m, Forall2 P l m -> Forall2 Q l m.
Proof. intros A B P Q H l m F. induction F; constructor; auto. Qed.

Lemma Forall2_cons_inv : forall A B (P : A -> B -> Prop) a b l m, Forall2 P (a :: l) (b :: m) -> P a b.
Proof. intros A B P a b l m H. inversion H. assumption. Qed.

(** Every query of the class [plain_query] compiles; all its aggregates use one group key; and whatever the rows, provided each
    group's values can be aggregated ([summable]), the result has exactly one row per distinct value of the GROUP BY
    items, in the order in which these values first appear; its columns are the items of the select list, in order; an
    aggregate has its SQL value over the rows of the group, an expression around aggregates is computed from these values, and the
    columns outside aggregates all come from one and the same row of the group. *)
Theorem group_query_correct : forall frepr ident ext lib tt str_of pick nested raw, ext (t "neg") = None ->
  (forall rs, rs <> [] -> In (pick rs) rs) ->
  forall q, plain_query q ->
  exists cfg, compile_query frepr ident ext q = Ok cfg /\ one_key cfg /\
  forall rows, let value := sem tt (sql_fn frepr ident ext lib) in
    let keyed := map (fun r => (group_key value q r, r)) rows in
    Forall (fun r => equal_keys (group_key value q r) (group_key value q r) = true) rows ->
    (forall k alias i a, In k (keys equal_keys keyed) -> In (alias, i) (q_items q) -> In a (aggregates i) ->
       summable (a_fun a) (a_distinct a) (argument value a (members equal_keys keyed k))) ->
    exists out, run_query frepr ident ext lib str_of pick nested raw cfg rows = Ok out /\
      Forall2 (fun k row => exists r, In r (members equal_keys keyed k) /\
        Forall2 (fun ai nv => fst nv = fst ai /\ item_value str_of value (members equal_keys keyed k) r (snd ai) (snd nv)) (q_items q) row)
        (keys equal_keys keyed) out.
Proof.
  intros fr id ext lib tt so pick nested raw NN HP q (ND & GK & PI & AG).
  pose proof (compile_items_ok fr id ext (q_group q) (q_items q) [] [] ND GK PI) as C. cbn [app] in C.
  assert (EX : existsb (fun ai => is_agg (snd ai)) (q_items q) = true).
  { destruct AG as (al & i & I & A). apply existsb_exists. exists (al, i). split; [exact I|]. destruct i; cbn [aggregates snd is_agg] in *; congruence. }
  rewrite EX in C. eexists. split; [exact C|]. split.
  { unfold one_key. cbn [g_agg g_key]. apply Forall_forall. intros [n a] I. unfold aggs_of in I. apply in_flat_map in I as ([m i] & _ & I).
    cbn [fst snd] in *. apply in_map_iff in I as (b & E & I). injection E as <- <-.
    destruct i; cbn [acol_of] in I; try contradiction; destruct I as [<-|[]]; reflexivity. }
  intros rows value keyed RF SU. unfold run_query, groups. cbn [g_key].
  set (f := fun r => map (key_value fr id ext lib nested r) (canons fr id ext (q_group q))).
  change (fold_left _ rows []) with (grouped f rows).
  set (g := group_key value q).
  assert (SM : forall a b, sm f a b = sm g a b).
  { intros a b. unfold sm, f, g, group_key. destruct (q_group q) as [|k0 gr] eqn:G.
    - cbn. reflexivity.
    - rewrite !(key_values fr id ext lib tt NN nested (q_items q) (k0 :: gr) _) by (congruence || exact GK). reflexivity. }
  assert (RF' : Forall (fun r => sm f r r = true) rows).
  { apply Forall_forall. intros r I. rewrite Forall_forall in RF. rewrite SM. unfold sm, g. rewrite <- equal_keys_same. apply RF. exact I. }
  destruct (grouped_spec f rows RF') as [E _]. rewrite E. clear E.
  assert (M : forall r, members equal_keys keyed (g r) = filter (fun x => sm f r x) rows).
  { intros r. unfold members, keyed. clear -SM. induction rows as [|x rows IH]; [reflexivity|]. cbn [map filter fst].
    rewrite SM. unfold sm. rewrite <- equal_keys_same. fold g. change (group_key value q x) with (g x).
    destruct (equal_keys (g r) (g x)); [exact (f_equal (cons x) IH)|exact IH]. }
  assert (KS : keys equal_keys keyed = map g (firsts f [] rows)).
  { rewrite (firsts_ext f g SM). unfold keys. change (@nil (list val)) with (map g []). symmetry.
    apply firsts_keys. intros a b. unfold sm. rewrite equal_keys_same. reflexivity. }
  rewrite KS.
  destruct (mapm_ok _ _ (fun gr => out_row fr id ext lib so pick raw
      (mkconfig (schema_of fr id ext (q_items q)) (aggs_of fr id ext (q_group q) (q_items q)) (canons fr id ext (q_group q))) (snd gr))
      (fun gr o => exists r, In r (snd gr) /\ Forall2 (fun ai nv => fst nv = fst ai /\ item_value so value (snd gr) r (snd ai) (snd nv)) (q_items q) o)
      (map (fun r => (f r, filter (fun x => sm f r x) rows)) (firsts f [] rows))) as (out & E & F).
  { intros gr I. apply in_map_iff in I as (r & <- & I). cbn [snd].
    assert (Ir : In r rows) by (eapply firsts_incl; exact I).
    assert (Im : In r (filter (fun x => sm f r x) rows)) by (apply filter_In; split; [exact Ir|rewrite Forall_forall in RF'; apply RF'; exact Ir]).
    assert (Ne : filter (fun x => sm f r x) rows <> []) by (intros Z; rewrite Z in Im; destruct Im).
    destruct (out_row_ok fr id ext lib tt NN so pick raw (q_group q) (q_items q) (filter (fun x => sm f r x) rows) Ne ND PI) with (key := canons fr id ext (q_group q)) as (o & E & F).
    - apply Forall_forall. intros [al i] Ii. apply Forall_forall. intros a Ia. cbn [snd] in Ia. split.
      + rewrite Forall_forall in PI. specialize (PI _ Ii). cbn [snd] in PI.
        destruct i; cbn [aggregates plain_item] in *; try contradiction.
        * destruct Ia as [<-|[]]. exact PI.
        * destruct PI as (_ & _ & _ & Pa & _). apply in_map_iff in Ia as (h & <- & Ih). rewrite Forall_forall in Pa. apply Pa. exact Ih.
      + rewrite <- M. apply (SU (g r) al i a); [|exact Ii|exact Ia]. rewrite KS. apply in_map. exact I.
    - exists o. split; [exact E|]. exists (pick (filter (fun x => sm f r x) rows)). split; [apply HP; exact Ne|exact F]. }
  exists out. split; [exact E|]. rewrite Forall2_map_l in F. rewrite Forall2_map_l. cbn [snd] in F.
  eapply Forall2_weaken; [|exact F]. intros r o H. cbn beta in H. rewrite M. exact H.
Qed.
Print Assumptions group_query_correct.

(** The claim for aggregates over a table as a whole (no GROUP BY): one row, if the table has any. *)
Theorem whole_table_one_row : forall frepr ident ext lib tt str_of pick nested raw, ext (t "neg") = None ->
  (forall rs, rs <> [] -> In (pick rs) rs) ->
  forall q, plain_query q -> q_group q = [] ->
  exists cfg, compile_query frepr ident ext q = Ok cfg /\
  forall rows, rows <> [] -> let value := sem tt (sql_fn frepr ident ext lib) in
    (forall alias i a, In (alias, i) (q_items q) -> In a (aggregates i) -> summable (a_fun a) (a_distinct a) (argument value a rows)) ->
    exists row r, run_query frepr ident ext lib str_of pick nested raw cfg rows = Ok [row] /\ In r rows /\
      Forall2 (fun ai nv => fst nv = fst ai /\ item_value str_of value rows r (snd ai) (snd nv)) (q_items q) row.
Proof.
  intros fr id ext lib tt so pick nested raw NN HP q P G.
  destruct (group_query_correct fr id ext lib tt so pick nested raw NN HP q P) as (cfg & C & _ & H). exists cfg. split; [exact C|].
  intros rows Ne value S. specialize (H rows). cbv zeta in H. fold value in H.
  set (keyed := map (fun r => (group_key value q r, r)) rows) in *.
  assert (GK : forall r, group_key value q r = []) by (intros r; unfold group_key; rewrite G; reflexivity).
  assert (M : members equal_keys keyed [] = rows).
  { unfold members, keyed. clear -GK. induction rows as [|x rows IH]; [reflexivity|]. cbn [map filter fst]. rewrite GK.
    change (equal_keys [] []) with true. cbn match. exact (f_equal (cons x) IH). }
  assert (L : forall l, keys_from equal_keys [[]] (map (fun r => (group_key value q r, r)) l) = [])
    by (induction l as [|y l IH]; [reflexivity|]; cbn [map keys_from existsb]; rewrite GK; exact IH).
  assert (K' : forall l, l <> [] -> keys equal_keys (map (fun r => (group_key value q r, r)) l) = [[]])
    by (intros [|x l] Nl; [congruence|]; unfold keys; cbn [map keys_from existsb app]; rewrite GK; f_equal; apply L).
  assert (K : keys equal_keys keyed = [[]]) by (apply K'; exact Ne).
  destruct H as (out & R & F).
  - apply Forall_forall. intros r _. rewrite GK. reflexivity.
  - intros k al i a Ik. rewrite K in Ik. destruct Ik as [<-|[]]. rewrite M. apply S.
  - rewrite K in F. destruct out as [|row [|row' out]]; [inversion F| |inversion F as [|? ? ? ? _ F']; inversion F'].
    apply Forall2_cons_inv in F. destruct F as (r & Ir & Fr). rewrite M in Ir, Fr.
    exists row, r. split; [exact R|split; [exact Ir|exact Fr]].
Qed.
Print Assumptions whole_table_one_row.

(** DISTINCT is refused in every aggregate other than COUNT, wherever it stands. *)
Theorem distinct_only_in_count : forall frepr ident ext q alias i a, In (alias, i) (q_items q) -> In a (aggregates i) ->
  a_distinct a = true -> a_fun a <> FCount -> exists e, compile_query frepr ident ext q = Err e.
Proof.
  intros fr id ext [items group] alias i a I A D F. unfold compile_query. cbn [q_items q_group] in *. generalize (mkconfig [] [] []).
  assert (Parts : forall l, In a (map snd l) -> exists e, compile_parts fr id ext l = Err e).
  { induction l as [|[n b] l IH]; intros J; [destruct J|]. cbn [compile_parts]. unfold compile_part. cbn [fst snd map] in *. destruct J as [->|J].
    - exists CompileError. unfold calculater_of. rewrite D. destruct (a_fun a); try reflexivity. congruence.
    - destruct (calculater_of b); cbn [bind]; [|eexists; reflexivity]. destruct (IH J) as [x ->]. cbn [bind]. eexists. reflexivity. }
  induction items as [|[al j] items IH]; intros cfg; [destruct I|]. cbn [compile_items]. destruct I as [E|I].
  - injection E as -> ->. enough (K : exists e, compile_item fr id ext group cfg alias i = Err e) by (destruct K as [x ->]; eexists; reflexivity).
    destruct i; cbn [aggregates] in A; try contradiction; cbn [compile_item]; unfold compile_aggregate_column.
    + destruct (Parts [([], a0)] A) as [x ->]. eexists. reflexivity.
    + destruct (Parts holes A) as [x ->]. eexists. reflexivity.
  - destruct (compile_item fr id ext group cfg al j); cbn [bind]; [apply IH; exact I|eexists; reflexivity].
Qed.
Print Assumptions distinct_only_in_count.

(** ** A case of the class: SELECT a, SUM(b) AS s, COUNT( * ) > 1 AS n FROM t GROUP BY a *)
Definition A := t "a". Definition B := t "b". Definition C := t "c".
Definition sum_b : aggregate := mkagg FSum false (Some (ECol B)).
Definition count_all : aggregate := mkagg FCount false None.
Definition hole : text := t "value_1".
Definition more_than_one : expr := EBin (t "gt") (ECol hole) (EConst (VInt 1)).
Definition q1 : query := mkquery [(A, ICol A); (t "s", IAgg sum_b); (t "n", IExpr more_than_one [(hole, count_all)])] [KeyCol false A].
Definition r2 (x y : val) : row := fun n => if text_eqb n A then x else if text_eqb n B then y else VNone.
Definition rows1 : list row := [r2 (VInt 1) (VInt 10); r2 (VInt 2) (VInt 5); r2 (VInt 1) VNone; r2 (VFloat (S754_finite false 4503599627370496 (-52))) (VInt 7)].
Definition first (rs : list row) : row := match rs with r :: _ => r | [] => fun _ => VNone end.
Definition run1 (q : query) (rows : list row) :=
  do cfg <- compile_query fr0 id0 no_ext q; run_query fr0 id0 no_ext no_lib (fun _ => []) first (fun _ _ => VNone) (fun _ => VNone) cfg rows.
Example q1_plain : plain_query q1.
Proof.
  unfold plain_query, q1. cbn [q_items q_group map fst snd]. repeat split.
  - apply NoDup_cons; [intros [E|[E|[]]]; discriminate E|]. apply NoDup_cons; [intros [E|[]]; discriminate E|]. apply NoDup_cons; [intros []|apply NoDup_nil].
  - apply Forall_cons; [|apply Forall_nil]. intros i [E|[E|[E|[]]]]; inversion E; reflexivity.
  - apply Forall_cons; [exact I|]. apply Forall_cons; [|apply Forall_cons; [|apply Forall_nil]].
    + cbn [plain_item snd]. unfold plain_aggregate, sum_b. cbn. repeat split; try discriminate. intros e E. injection E as <-. constructor.
    + cbn [plain_item snd]. split; [apply X_bin; constructor|]. split; [discriminate|]. split; [apply NoDup_cons; [intros []|apply NoDup_nil]|]. split.
      * apply Forall_cons; [|apply Forall_nil]. unfold plain_aggregate, count_all. cbn. repeat split; discriminate.
      * intros n M. unfold more_than_one in M. apply columns_mentions in M. cbn in M. destruct M as [<-|[]]. left. left. reflexivity.
  - exists (t "s"), (IAgg sum_b). split; [right; left; reflexivity|discriminate].
Qed.
(** 1 and 1.0 are one group. *)
Example q1_runs : run1 q1 rows1 = Ok [[(A, VInt 1); (t "s", VInt 17); (t "n", VInt 1)]; [(A, VInt 2); (t "s", VInt 5); (t "n", VInt 0)]].
Proof. vm_compute. reflexivity. Qed.

(** The rows of this example meet the hypotheses of [group_query_correct]. *)
Definition value1 := sem num_text (sql_fn fr0 id0 no_ext no_lib).
Example q1_summable : let keyed := map (fun r => (group_key value1 q1 r, r)) rows1 in
  Forall (fun r => equal_keys (group_key value1 q1 r) (group_key value1 q1 r) = true) rows1 /\
  forall k alias i a, In k (keys equal_keys keyed) -> In (alias, i) (q_items q1) -> In a (aggregates i) ->
    summable (a_fun a) (a_distinct a) (argument value1 a (members equal_keys keyed k)).
Proof.
  split.
  - repeat constructor.
  - intros k alias i a K I J.
    assert (E : keys equal_keys (map (fun r => (group_key value1 q1 r, r)) rows1) = [[VInt 1]; [VInt 2]]) by (vm_compute; reflexivity).
    rewrite E in K. destruct I as [I|[I|[I|[]]]]; injection I as <- <-; [destruct J| |destruct J as [<-|[]]; exact Logic.I]. destruct J as [<-|[]].
    destruct K as [<-|[<-|[]]]; (split; [intros Z; vm_compute in Z; discriminate Z|]).
    + exists (10 + (7 + 0)). change (sums [VInt 10; VNone; VInt 7] (10 + (7 + 0))). apply sums_cons; [reflexivity|]. apply sums_null. apply sums_cons; [reflexivity|apply sums_nil].
    + exists (5 + 0). change (sums [VInt 5] (5 + 0)). apply sums_cons; [reflexivity|apply sums_nil].
Qed.

(** ** What the code does otherwise *)
(** The group key is looked up in the items already compiled, so that the groups depend on where the aggregate stands: the same
    two items, exchanged, give different groups. *)
Definition sum_c : aggregate := mkagg FSum false (Some (ECol C)).
Definition q_alias_first : query := mkquery [(A, ICol B); (t "s", IAgg sum_c)] [KeyCol false A].
Definition q_alias_last : query := mkquery [(t "s", IAgg sum_c); (A, ICol B)] [KeyCol false A].
Definition r3 (x y z : val) : row := fun n => if text_eqb n A then x else if text_eqb n B then y else if text_eqb n C then z else VNone.
Definition rows3 : list row := [r3 (VInt 1) (VInt 1) (VInt 10); r3 (VInt 2) (VInt 1) (VInt 20)].
Theorem group_by_independent_of_order_refuted : exists i j group rows,
  run1 (mkquery [i; j] group) rows = Ok [[(A, VInt 1); (t "s", VInt 30)]] /\
  run1 (mkquery [j; i] group) rows = Ok [[(t "s", VInt 10); (A, VInt 1)]; [(t "s", VInt 20); (A, VInt 1)]].
Proof. exists (A, ICol B), (t "s", IAgg sum_c), [KeyCol false A], rows3. split; vm_compute; reflexivity. Qed.
(** Two aggregates around the alias have different group keys. *)
Theorem one_group_key_refuted : exists q cfg, compile_query fr0 id0 no_ext q = Ok cfg /\ ~ one_key cfg.
Proof.
  exists (mkquery [(t "s", IAgg sum_c); (A, ICol B); (t "n", IAgg count_all)] [KeyCol false A]). eexists. split; [reflexivity|].
  intros H. apply Forall_inv in H. cbn in H. discriminate H.
Qed.
(** GROUP BY a position is GROUP BY a constant: one group, whatever the rows. *)
Theorem group_by_position_one_group : forall frepr ident ext lib nested schema (p : Z) rows, rows <> [] ->
  exists k, groups frepr ident ext lib nested (compile_keys frepr ident ext schema [KeyExp (EConst (VInt p))]) rows = [(k, rows)].
Proof.
  intros fr id ext lib nested schema p rows Ne. exists [VInt p]. unfold groups. cbn [compile_keys compile_key map].
  assert (G : forall l r0, fold_left (fun g r => add_row [VInt p] r g) l [([VInt p], r0)] = [([VInt p], r0 ++ l)]).
  { induction l as [|x l IH]; intros r0; [rewrite app_nil_r; reflexivity|]. cbn [fold_left add_row same_key].
    assert (pyeq (VInt p) (VInt p) = true) as -> by (cbn; rewrite Z.compare_refl; reflexivity). cbn [andb]. rewrite IH, <- app_assoc. reflexivity. }
  destruct rows as [|x rows]; [congruence|]. cbn [fold_left add_row].
  change (fun g r => add_row [key_value fr id ext lib nested r (KCol (compile fr id ext (EConst (VInt p))))] r g)
    with (fun g (r : row) => add_row [VInt p] r g). cbn [key_value]. exact (G rows [x]).
Qed.
Print Assumptions group_by_position_one_group.
(** In an expression around aggregates a column which is not an item reads as NULL: SELECT a, IFNULL(b, COUNT( * )) AS x GROUP BY a. *)
Theorem bare_column_in_expression_refuted : exists q rows out r, plain_item [(t "b", ICol (t "b"))] (snd (nth 1 (q_items q) ([], IConst VNone))) /\
  run1 q rows = Ok [[(A, VInt 1); (t "x", out)]] /\ rows = [r] /\ r B = VInt 5 /\ out = VInt 1 /\
  forall v, item_value (fun _ => []) value1 rows r (snd (nth 1 (q_items q) ([], IConst VNone))) v -> v = VInt 5.
Proof.
  exists (mkquery [(A, ICol A); (t "x", IExpr (EIfNull (ECol B) (ECol hole)) [(hole, count_all)])] [KeyCol false A]), [r2 (VInt 1) (VInt 5)], (VInt 1), (r2 (VInt 1) (VInt 5)).
  cbn [q_items nth snd]. repeat split.
  - apply X_ifnull; constructor.
  - discriminate.
  - apply NoDup_cons; [intros []|apply NoDup_nil].
  - apply Forall_cons; [|apply Forall_nil]. unfold plain_aggregate, count_all. cbn. repeat split; discriminate.
  - intros n M. apply columns_mentions in M. cbn in M. destruct M as [<-|[<-|[]]]; [right; left; reflexivity|left; left; reflexivity].
  - intros v H. inversion H as [| | | |e holes vs F E1 E2]. subst e holes. inversion F as [|h [n w] ? vs' [En Aw] F' Q1 Q2]. cbn [fst snd] in En. subst n. inversion F'. reflexivity.
Qed.
Print Assumptions bare_column_in_expression_refuted.
(** Without rows there are no groups: no row at all, also for COUNT( * ) without GROUP BY, where SQL has one row. *)
Theorem no_rows_no_result : forall frepr ident ext lib str_of pick nested raw cfg,
  run_query frepr ident ext lib str_of pick nested raw cfg [] = Ok [].
Proof. reflexivity. Qed.

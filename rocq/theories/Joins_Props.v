(** C37: join kinds. *)
From Coq Require Import Permutation.
From Verif Require Import Base PyVal Joins_Syntax Joins_Spec Joins_Model Joins_Proofs Joins_Rewrites Joins_Accept.
Open Scope Z_scope.

(** Well-formed query over one FROM table. *)
Definition one_table (p : text) (q : query) : Prop :=
  qfrom q = [p] /\ scoped [p] (qjoins q) /\ forall j, In j (qjoins q) -> plain_on j.
Definition has_right (q : query) : Prop := exists j, In j (qjoins q) /\ jside j = SRight.
Definition has_inner (q : query) : Prop := exists j, In j (qjoins q) /\ jkind j = KInner.
(** The join types that the compiler takes without a rewrite: JOIN, CROSS JOIN, LEFT JOIN. *)
Definition direct (j : join) : Prop := (jkind j = KNone \/ jkind j = KCross) /\ (jside j = SNone \/ jside j = SLeft).

Lemma no_right : forall js, (forall j, In j js -> jside j <> SRight) ->
  existsb (fun j => match jside j with SRight => true | _ => false end) js = false.
Proof.
  intros js H. apply not_true_is_false. intros E. apply existsb_exists in E. destruct E as (j & Hj & E).
  apply (H j Hj). now destruct (jside j).
Qed.
Lemma no_inner : forall js, (forall j, In j js -> jkind j <> KInner) ->
  existsb (fun j => match jkind j with KInner => true | _ => false end) js = false.
Proof.
  intros js H. apply not_true_is_false. intros E. apply existsb_exists in E. destruct E as (j & Hj & E).
  apply (H j Hj). now destruct (jkind j).
Qed.
Lemma single_from : forall q p, qfrom q = [p] -> multi_select q = q.
Proof. intros q p H. unfold multi_select. now rewrite H. Qed.

Lemma sql_query_steps : forall cmpv p d bjs w,
  sql_query cmpv p d (Query [p] (map (fun bj => as_inner_if (fst bj) (snd bj)) bjs) w) =
  filter (alltrue cmpv p w) (stepsk cmpv p d bjs (map (fun r => [(p, Some r)]) (d p))).
Proof.
  intros. unfold sql_query. cbn [qwhere qjoins qfrom]. unfold sql_from. cbn [fold_left fst snd].
  rewrite sql_steps. now rewrite base_rows.
Qed.
Lemma lefts_steps : forall cmpv p d js es, lefts cmpv p d js es = stepsk cmpv p d (map (fun j => (false, j)) js) es.
Proof.
  intros cmpv p d js. induction js as [|j js IH]; intros es; [reflexivity|].
  unfold lefts, stepsk. cbn [map fold_left fst snd]. apply IH.
Qed.

(** Without RIGHT and INNER, every join is executed as a LEFT JOIN, whatever it is called. *)
Lemma flat_map_nil_all : forall A B (f : A -> list B) l, (forall x, In x l -> f x = []) -> flat_map f l = [].
Proof.
  induction l as [|x l IH]; intros H; [reflexivity|]. cbn [flat_map]. rewrite (H x) by (now left). apply IH. intros y Hy. apply H. now right.
Qed.

Theorem joins_are_left_joins : forall cmpv d fuel p q, null_rejecting cmpv -> eq_symmetric cmpv ->
  one_table p q -> (forall j, In j (qjoins q) -> direct j) ->
  run_query cmpv d fuel q =
  Some (Ok (sql_query cmpv p d (Query [p] (map (as_inner_if false) (qjoins q)) (qwhere q)))).
Proof.
  intros cmpv d fuel p q Hn Hs (Hf & Hsc & Hpl) Hd.
  assert (Ho : optimize fuel q = Some q).
  { unfold optimize. rewrite (single_from q p Hf).
    rewrite no_right by (intros j Hj E; destruct (Hd j Hj) as [_ [H|H]]; congruence).
    rewrite no_inner by (intros j Hj E; destruct (Hd j Hj) as [[H|H] _]; congruence).
    now destruct (qjoins q). }
  unfold run_query. rewrite Ho. unfold execute. rewrite Hf.
  destruct (@run_joins_accepts cmpv d p (qjoins q) (map (fun r => [(p, Some r)]) (d p))) as (res & Hr).
  - intros j Hj. unfold join_type_ok. destruct (Hd j Hj) as [[->| ->] [->| ->]]; reflexivity.
  - exact (scoped_qualified _ _ Hsc).
  - intros j Hj. exact (proj1 (Hpl j Hj)).
  - rewrite Hr. apply run_joins_lefts in Hr; [|exact Hs|].
    + subst res. do 2 f_equal. rewrite lefts_steps.
      rewrite <- (map_map (fun j => (false, j)) (fun bj => as_inner_if (fst bj) (snd bj))).
      rewrite sql_query_steps. reflexivity.
    + intros j a Hj Ha. split; [exact (proj2 (Hpl j Hj) a Ha)|exact (scoped_qualified _ _ Hsc j a Hj Ha)].
Qed.
Print Assumptions joins_are_left_joins.

(** LEFT JOIN keeps every left row: queries that use only LEFT JOIN mean what SQL says. *)
Theorem left_joins_correct : forall cmpv d fuel p q, null_rejecting cmpv -> eq_symmetric cmpv ->
  one_table p q -> (forall j, In j (qjoins q) -> jside j = SLeft /\ jkind j = KNone) ->
  run_query cmpv d fuel q = Some (Ok (sql_query cmpv p d q)).
Proof.
  intros cmpv d fuel p q Hn Hs Ho Hd.
  rewrite (@joins_are_left_joins cmpv d fuel p q Hn Hs Ho).
  - destruct q as [fr js w]. destruct Ho as (Hf & _). cbn [qfrom qjoins qwhere] in *. subst fr.
    do 4 f_equal. rewrite <- (map_id js) at 2. apply map_ext_in. intros j Hj. destruct (Hd j Hj) as [H1 H2].
    destruct j as [a b c e]. cbn in *. now subst.
  - intros j Hj. destruct (Hd j Hj) as [H1 H2]. split; auto.
Qed.
Print Assumptions left_joins_correct.

(** With an INNER JOIN in the query, the joins whose ON ties the joined table to the first table are
    executed as INNER JOIN and all others as LEFT JOIN; what is written does not matter any more. If
    there is no such join the query is rejected. *)
Theorem inner_rewrite_exact : forall cmpv d fuel p q, null_rejecting cmpv -> eq_symmetric cmpv ->
  one_table p q -> (forall j a, In j (qjoins q) -> In a (jon j) -> strict_atom a) ->
  ~ has_right q -> has_inner q ->
  run_query cmpv d fuel q =
  Some (if existsb (linked p) (qjoins q)
        then Ok (sql_query cmpv p d (Query [p] (map (fun j => as_inner_if (linked p j) j) (qjoins q)) (qwhere q)))
        else Err CompileError).
Proof.
  intros cmpv d fuel p q Hn Hs (Hf & Hsc & Hpl) Hst Hr (ji & Hji & Eji).
  assert (Hneq : forall j, In j (qjoins q) -> jtab j <> p) by (apply (scoped_neq _ [p]); [now left|exact Hsc]).
  assert (Hrel : forall j, In j (qjoins q) -> rel p j = linked p j) by (intros j Hj; apply linked_rel).
  assert (Hin : existsb (fun j => match jkind j with KInner => true | _ => false end) (qjoins q) = true).
  { apply existsb_exists. exists ji. now rewrite Eji. }
  assert (Ho : optimize fuel q = Some (inner_rewrite q)).
  { unfold optimize. rewrite (single_from q p Hf).
    rewrite no_right by (intros j Hj E; apply Hr; now exists j). rewrite Hin.
    destruct (qjoins q); [destruct Hji|reflexivity]. }
  unfold run_query. rewrite Ho. unfold inner_rewrite. rewrite Hf.
  destruct (existsb (linked p) (qjoins q)) eqn:El.
  - assert (Hne : inner_fields p (qjoins q) <> []).
    { apply existsb_exists in El. destruct El as (j & Hj & El). rewrite <- Hrel in El by exact Hj.
      rewrite inner_fields_flat. intros E.
      assert (Hcol : exists c, In c (fields1 p j)).
      { unfold rel in El. pose proof El as Er. unfold tab_mem in Er. apply existsb_exists in Er.
        destruct Er as (y & Hy & _). unfold related in Hy. apply in_flat_map in Hy. destruct Hy as (a & Ha & Hy).
        assert (Hon : is_on (jtab j) [] a = true) by (unfold is_on; destruct (classify (jtab j) [] a); [reflexivity|destruct Hy..]).
        destruct (is_on_spec _ _ Hon) as (o & l & r & c & -> & Hc & Hlr).
        exists c. unfold fields1, join_fields. rewrite El. apply filter_In. split.
        - apply in_flat_map. exists (ACmp o l r). split; [unfold on_atoms; apply filter_In; auto|].
          cbn [acolumns]. apply in_or_app. destruct Hlr as [->| ->]; [left|right]; now left.
        - rewrite Hc. apply negb_true_iff, text_eqb_neq. now apply Hneq. }
      destruct Hcol as (c & Hc).
      assert (In c (flat_map (fields1 p) (qjoins q))) as Hx by (apply in_flat_map; eauto). rewrite E in Hx. destruct Hx. }
    destruct (inner_fields p (qjoins q)) as [|f0 fs0] eqn:Ef; [congruence|]. rewrite <- Ef. clear Hne.
    unfold execute. cbn [qfrom qjoins qwhere].
    destruct (@run_joins_accepts cmpv d p (map as_left (qjoins q)) (map (fun r => [(p, Some r)]) (d p))) as (res & Hres).
    + intros j Hj. apply in_map_iff in Hj. destruct Hj as (j0 & <- & _). reflexivity.
    + intros j a Hj Ha. apply in_map_iff in Hj. destruct Hj as (j0 & <- & Hj). exact (scoped_qualified _ _ Hsc j0 a Hj Ha).
    + intros j Hj. apply in_map_iff in Hj. destruct Hj as (j0 & <- & Hj). exact (proj1 (Hpl j0 Hj)).
    + rewrite Hres. apply run_joins_lefts in Hres; [|exact Hs|].
      * subst res. do 2 f_equal.
        assert (Hl : forall es, lefts cmpv p d (map as_left (qjoins q)) es = lefts cmpv p d (qjoins q) es).
        { generalize (qjoins q). clear. induction l as [|j js IH]; intros es; [reflexivity|]. unfold lefts. cbn [map fold_left].
          exact (IH (left_join cmpv p d (jtab j) (jon j) es)). }
        rewrite Hl.
        transitivity (filter (alltrue cmpv p (qwhere q)) (filter (nn p (flat_map (fields1 p) (qjoins q)))
           (lefts cmpv p d (qjoins q) (map (fun r => [(p, Some r)]) (d p))))).
        { rewrite filter_filter. apply filter_ext. intros e.
          change (alltrue cmpv p (qwhere q ++ map not_null (inner_fields p (qjoins q))) e =
                  nn p (flat_map (fields1 p) (qjoins q)) e && alltrue cmpv p (qwhere q) e).
          rewrite alltrue_app, nn_atoms, inner_fields_flat. apply andb_comm. }
        rewrite (@lefts_nn cmpv p d (qjoins q) [p]); [|exact Hn|now left|exact Hsc|exact Hst].
        rewrite (map_ext_in (fun j => as_inner_if (linked p j) j) (fun j => as_inner_if (rel p j) j)).
        2:{ intros j Hj. now rewrite Hrel. }
        rewrite <- (map_map (fun j => (rel p j, j)) (fun bj => as_inner_if (fst bj) (snd bj))).
        now rewrite sql_query_steps.
      * intros j a Hj Ha. apply in_map_iff in Hj. destruct Hj as (j0 & <- & Hj). cbn [jtab jon as_left] in *.
        split; [exact (proj2 (Hpl j0 Hj) a Ha)|exact (scoped_qualified _ _ Hsc j0 a Hj Ha)].
  - assert (Ef : inner_fields p (qjoins q) = []).
    { rewrite inner_fields_flat. apply flat_map_nil_all. intros j Hj. unfold fields1, join_fields.
      change (tab_mem (Some p) (related (jtab j) [] (jon j))) with (rel p j). rewrite Hrel by exact Hj.
      destruct (linked p j) eqn:E; [|reflexivity]. exfalso.
      assert (existsb (linked p) (qjoins q) = true) by (apply existsb_exists; eauto). congruence. }
    rewrite Ef. unfold execute. rewrite Hf.
    assert (Hrej : forall js es, In ji js -> (forall j, In j js -> In j (qjoins q)) -> run_joins cmpv d p js es = Err CompileError).
    { induction js as [|j js IH]; intros es Hj Hsub; [destruct Hj|]. cbn [run_joins].
      destruct (join_type_ok j) eqn:Et; [|reflexivity].
      destruct Hj as [->|Hj]; [unfold join_type_ok in Et; rewrite Eji in Et; discriminate|].
      destruct (@parse_on_accepts cmpv (jtab j) (jon j) (Plan [] [] [])) as (pl & ->).
      - intros a Ha. apply (scoped_qualified _ _ Hsc j a); [apply Hsub; now left|exact Ha].
      - exact (proj1 (Hpl j (Hsub j (or_introl eq_refl)))).
      - apply IH; [exact Hj|]. intros j' Hj'. apply Hsub. now right. }
    now rewrite Hrej.
Qed.
Print Assumptions inner_rewrite_exact.

(** INNER JOIN returns only matching pairs, when every join is INNER and tied to the first table. *)
Theorem inner_joins_correct : forall cmpv d fuel p q, null_rejecting cmpv -> eq_symmetric cmpv ->
  one_table p q -> (forall j a, In j (qjoins q) -> In a (jon j) -> strict_atom a) -> qjoins q <> [] ->
  (forall j, In j (qjoins q) -> jkind j = KInner /\ jside j = SNone /\ linked p j = true) ->
  run_query cmpv d fuel q = Some (Ok (sql_query cmpv p d q)).
Proof.
  intros cmpv d fuel p q Hn Hs Ho Hst Hne Hall.
  assert (Hj0 : exists j, In j (qjoins q)) by (destruct (qjoins q) as [|j js]; [congruence|exists j; now left]).
  destruct Hj0 as (j0 & Hj0).
  rewrite (@inner_rewrite_exact cmpv d fuel p q Hn Hs Ho Hst).
  - assert (existsb (linked p) (qjoins q) = true) as -> by (apply existsb_exists; exists j0; split; [exact Hj0|apply (Hall j0 Hj0)]).
    do 2 f_equal. unfold sql_query. destruct Ho as (Hf & _). rewrite Hf. cbn [qfrom qjoins qwhere]. f_equal.
    generalize (sql_from cmpv p d [p]).
    assert (Hj : forall js st, (forall j, In j js -> In j (qjoins q)) ->
      fold_left (sql_join cmpv p d) (map (fun j => as_inner_if (linked p j) j) js) st = fold_left (sql_join cmpv p d) js st).
    { induction js as [|j js IH]; intros [ts es] Hsub; [reflexivity|]. cbn [map fold_left].
      destruct (Hall j (Hsub j (or_introl eq_refl))) as (_ & H2 & H3). rewrite H3.
      unfold sql_join at 2 4. cbn [as_inner_if jtab jside jon]. rewrite H2. apply IH. intros j' Hj'. apply Hsub. now right. }
    intros st. f_equal. apply Hj. auto.
  - intros (j & Hj & E). destruct (Hall j Hj) as (_ & H & _). congruence.
  - exists j0. split; [exact Hj0|apply (Hall j0 Hj0)].
Qed.
Print Assumptions inner_joins_correct.

(** FROM a, b, ... WHERE w: the product of the tables filtered by [w], provided WHERE ties every further
    table to a constant or to tables before it. *)
Fixpoint tied (w : list atom) (can ts : list text) : Prop :=
  match ts with
  | [] => True
  | tb :: r => ~ In tb can /\
      (exists o l r c v, In (ACmp o l r) w /\ ctab c = Some tb /\ (l = OCol c /\ r = v \/ r = OCol c /\ l = v) /\
         match v with OCol c' => exists x, ctab c' = Some x /\ In x can | OExpr _ _ => True end) /\
      tied w (can ++ [tb]) r
  end.

Lemma tied_fresh : forall w ts can, can <> [] -> tied w can ts -> fresh w can ts.
Proof.
  induction ts as [|tb ts IH]; intros can Hcan H; [exact I|]. cbn [tied fresh] in *. destruct H as (H1 & H2 & H3).
  split; [exact H1|]. split; [|apply IH; [destruct can; discriminate|exact H3]].
  destruct H2 as (o & l & r & c & v & Hi & Hc & Hlr & Hv). intros E.
  assert (Hcl : classify tb can (ACmp o l r) <> ClCalc).
  { unfold classify.
    assert (Hex : exists v', on_value tb can l r = Some v').
    { destruct can as [|c0 can0]; [congruence|]. unfold on_value.
      apply is_tab_true in Hc.
      assert (Hcan' : forall c', v = OCol c' -> in_can (c0 :: can0) c' = true) by (intros c' ->; now apply in_can_spec).
      destruct Hlr as [[-> ->]|[-> ->]]; cbn [col_of].
      - rewrite Hc. destruct v as [c'|]; cbn [col_of]; [rewrite (Hcan' c' eq_refl)|]; eauto.
      - destruct v as [c'|]; cbn [col_of].
        + rewrite Hc. rewrite (Hcan' c' eq_refl). destruct (is_tab tb c'); [destruct (in_can (c0 :: can0) c)|]; eauto.
        + rewrite Hc. eauto. }
    destruct Hex as (v' & ->). now destruct (ocolumns v'). }
  assert (Hin : In (ACmp o l r) (ons w tb can)).
  { unfold ons, on_atoms, const_atoms. apply in_or_app.
    unfold is_on, is_const. destruct (classify tb can (ACmp o l r)) eqn:Ecl; [left|right|congruence];
      apply filter_In; (split; [exact Hi|]); cbv beta; rewrite Ecl; reflexivity. }
  rewrite E in Hin. destruct Hin.
Qed.

Theorem comma_joins_correct : forall cmpv d fuel p ts w res, null_rejecting cmpv -> eq_symmetric cmpv ->
  ts <> [] -> tied w [p] ts ->
  (forall a, In a w -> forall c, In c (acols a) -> ctab c <> None) ->
  (forall o l r cs f, In (ACmp o l r) w -> l = OExpr cs f \/ r = OExpr cs f -> forall c, In c cs -> ctab c = Some p) ->
  run_query cmpv d fuel (Query (p :: ts) [] w) = Some (Ok res) ->
  res = sql_query cmpv p d (Query (p :: ts) [] w).
Proof.
  intros cmpv d fuel p ts w res Hn Hs Hne Ht Hq Hx H.
  assert (Hok : forall a, In a w -> multi_ok p [] a).
  { intros a Ha. split; [exact (Hq a Ha)|]. destruct a as [o l r| |]; [|exact I..]. intros cs f Hlr. exact (Hx o l r cs f Ha Hlr). }
  assert (Hf : fresh w [p] ts) by (apply tied_fresh; [discriminate|exact Ht]).
  set (q := Query [p] (multi_joins [p] w ts) w).
  assert (Ho : optimize fuel (Query (p :: ts) [] w) = Some q).
  { unfold optimize. assert (multi_select (Query (p :: ts) [] w) = q) as -> by (destruct ts; [congruence|reflexivity]).
    assert (Hall : forall j, In j (qjoins q) -> jside j = SLeft /\ jkind j = KNone).
    { cbn [q qjoins]. generalize [p]. clear. induction ts as [|tb ts IH]; intros can j Hj; [destruct Hj|].
      cbn [multi_joins] in Hj. destruct Hj as [<-|Hj]; [now split|]. exact (IH _ j Hj). }
    rewrite no_right by (intros j Hj E; destruct (Hall j Hj); congruence).
    rewrite no_inner by (intros j Hj E; destruct (Hall j Hj); congruence). now destruct (qjoins q). }
  unfold run_query in H. rewrite Ho in H. unfold execute in H. cbn [q qfrom qjoins qwhere] in H.
  destruct (run_joins cmpv d p (multi_joins [p] w ts) (map (fun r => [(p, Some r)]) (d p))) as [es|] eqn:E; [|discriminate].
  injection H as <-. apply run_joins_lefts in E; [|exact Hs|].
  - subst es. change (fun e => forallb (test_atom cmpv p e) w) with (alltrue cmpv p w).
    rewrite (multi_lefts cmpv p d w Hn Hok ts [p]); [|now left|exact Hf].
    unfold sql_query. cbn [qwhere qjoins qfrom fold_left]. unfold sql_from. cbn [fold_left fst snd].
    rewrite sql_from_crosses. cbn [snd]. now rewrite base_rows.
  - exact (multi_clean p w Hok ts [p] (or_introl eq_refl) Hf).
Qed.
Print Assumptions comma_joins_correct.

(** [FROM p RIGHT JOIN tb ON on WHERE w]: the rows SQL gives, seen through any list of qualified
    columns and up to the order of rows, provided every ON conjunct ties a column of [tb] to [p], the
    conditions are ones the compiler reads as written for [p], and a WHERE that accepts a row of [tb]
    with [p] null-extended accepts it with any row of [p]. *)
Theorem right_join_correct : forall cmpv d fuel p tb k on w res cs, null_rejecting cmpv -> eq_symmetric cmpv ->
  p <> tb -> on <> [] ->
  reads [tb; p] on -> reads [tb; p] w -> (forall c, In c cs -> ctab c <> None) ->
  (forall a, In a on -> linked p (Join tb SRight k [a]) = true) ->
  (forall a, In a (on ++ w) -> on_clean p a) -> k <> KInner ->
  (forall b a, In b (d tb) -> In a (d p) -> alltrue cmpv p w [(tb, Some b); (p, None)] = true ->
               alltrue cmpv p w [(tb, Some b); (p, Some a)] = true) ->
  run_query cmpv d (S (S fuel)) (Query [p] [Join tb SRight k on] w) = Some (Ok res) ->
  Permutation (map (project tb cs) res)
              (map (project p cs) (sql_query cmpv p d (Query [p] [Join tb SRight k on] w))).
Proof.
  intros cmpv d fuel p tb k on w res cs Hn Hs Hpt Hne Hron Hrw Hcs Hlink Hclean Hk Hnull H.
  assert (Hqon : forall a, In a on -> qualified a).
  { intros a Ha c Hc. destruct (Hron a c Ha Hc) as (x & -> & _). discriminate. }
  assert (Hqw : forall a, In a w -> qualified a).
  { intros a Ha c Hc. destruct (Hrw a c Ha Hc) as (x & -> & _). discriminate. }
  assert (Hcl : forall a, In a on -> exists l, classify tb [] a = ClOn l /\ tab_mem (Some p) l = true).
  { intros a Ha. specialize (Hlink a Ha). rewrite <- linked_rel in Hlink.
    unfold rel, related in Hlink. cbn [jtab jon flat_map] in Hlink. rewrite app_nil_r in Hlink.
    destruct (classify tb [] a) as [l| |]; [now exists l|discriminate..]. }
  assert (Hson : on_atoms tb [] on = on).
  { unfold on_atoms. apply filter_all. intros a Ha. unfold is_on. destruct (Hcl a Ha) as (l & -> & _). reflexivity. }
  assert (Hsc : const_atoms tb [] on = []).
  { unfold const_atoms. apply filter_none. intros a Ha. unfold is_const. destruct (Hcl a Ha) as (l & -> & _). reflexivity. }
  assert (Hsca : calc_atoms tb [] on = []).
  { unfold calc_atoms. apply filter_none. intros a Ha. unfold is_calc. destruct (Hcl a Ha) as (l & -> & _). reflexivity. }
  set (rl := related tb [] on).
  assert (Hrel : tab_mem (Some p) rl = true).
  { unfold rl, related. destruct on as [|a l0]; [congruence|]. destruct (Hcl a (or_introl eq_refl)) as (l & E & Hm).
    cbn [flat_map]. rewrite E. unfold tab_mem in *. rewrite existsb_app, Hm. reflexivity. }
  assert (Hrw2 : forall f, right_rewrite f (Query [p] [Join tb SRight k on] w) = None \/
     right_rewrite f (Query [p] [Join tb SRight k on] w) = Some (Query [tb] [Join p SLeft KNone (on ++ w)] w)).
  { intros f. unfold right_rewrite. cbn [qfrom qwhere qjoins map]. unfold jt_of. cbn [jtab jon jside].
    rewrite Hson, Hsc, Hsca. fold rl.
    set (jb := JT tb rl on [] [] TRight). set (prim := jt_primary p w).
    assert (Hn1 : next_selected prim [jb] = Some jb).
    { unfold next_selected. cbn [fold_left]. unfold is_right. cbn [t_type jb t_name prim jt_primary t_related andb].
      now rewrite Hrel. }
    assert (Hsel : select_loop f prim [jb] = None \/ select_loop f prim [jb] = Some jb).
    { destruct f as [|f]; [now left|]. cbn [select_loop]. rewrite Hn1. clear Hn1. revert f.
      assert (Hn2 : next_selected jb [jb] = None \/ next_selected jb [jb] = Some jb).
      { unfold next_selected. cbn [fold_left]. destruct (is_right jb && _); auto. }
      destruct Hn2 as [Hn2|Hn2].
      - intros [|f]; [now left|]. cbn [select_loop]. rewrite Hn2. now right.
      - intros f. left. now apply select_hangs. }
    destruct Hsel as [->| ->]; [now left|right]. cbn [t_type jb].
    assert (remove_jt jb [jb] = []) as ->.
    { unfold remove_jt. cbn [filter]. rewrite text_eqb_refl. reflexivity. }
    cbn [app length]. 
    assert (Hres : forall n l, tab_mem (Some p) l = true ->
      resort (S n) l on [prim] = ([JT p (related p [] w) on [] w TPrimary], [])).
    { intros n l. cbn [resort]. induction l as [|x l IH]; [discriminate|].
      unfold tab_mem. cbn [existsb]. unfold take_jt. cbn [find t_name prim jt_primary].
      destruct (tab_eqb (Some p) x) eqn:E.
      - intros _. cbn [filter t_name prim jt_primary]. rewrite E. cbn [negb].
        unfold is_right. cbn [t_type prim jt_primary].
        assert (Hnil : forall l', (fix go (rel : list (option text)) (js : list jt) {struct rel} : list jt * list jt :=
           match rel with
           | [] => ([], js)
           | n0 :: rest =>
             match take_jt n0 js with
             | Some (j, js1) =>
               if match t_type j with TRight => true | _ => false end then
                 let '(sub, js2) := resort n (t_related j) (t_on j) js1 in
                 let '(more, js3) := go rest js2 in
                 (JT (t_name j) (t_related j) on (t_const j) (t_calc j) TOther :: sub ++ more, js3)
               else
                 let '(more, js3) := go rest js1 in
                 (JT (t_name j) (t_related j) (t_on j ++ on) (t_const j) (t_calc j) (t_type j) :: more, js3)
             | None => go rest js
             end
           end) l' [] = ([], [])).
        { induction l' as [|y l' IHl]; [reflexivity|]. cbn [take_jt find]. exact IHl. }
        unfold take_jt in Hnil. unfold is_right in Hnil. rewrite Hnil. reflexivity.
      - intros Hm. exact (IH Hm). }
    change (t_on jb) with on. rewrite (Hres 1%nat (t_related jb) Hrel).
    cbn [app existsb is_right t_type orb map t_name t_on t_const t_calc jb prim jt_primary]. now rewrite app_nil_r. }
  assert (Hopt : forall f, optimize f (Query [p] [Join tb SRight k on] w) = None \/
     optimize f (Query [p] [Join tb SRight k on] w) = Some (Query [tb] [Join p SLeft KNone (on ++ w)] w)).
  { intros f. unfold optimize. rewrite (single_from (Query [p] [Join tb SRight k on] w) p eq_refl). cbn [qjoins existsb jside orb].
    destruct (Hrw2 f) as [->| ->]; [now left|right]. reflexivity. }
  unfold run_query in H. destruct (Hopt (S (S fuel))) as [Ho|Ho]; rewrite Ho in H; [discriminate|].
  injection H as H. unfold execute in H. cbn [qfrom qjoins qwhere] in H.
  destruct (run_joins cmpv d tb [Join p SLeft KNone (on ++ w)] (map (fun r => [(tb, Some r)]) (d tb))) as [es|] eqn:E; [|discriminate].
  injection H as <-. apply run_joins_lefts in E; [|exact Hs|].
  - subst es. unfold lefts. cbn [fold_left jtab jon].
    change (fun e => forallb (test_atom cmpv tb e) w) with (alltrue cmpv tb w).
    unfold sql_query. cbn [qwhere qjoins qfrom fold_left]. unfold sql_from. cbn [fold_left fst snd].
    unfold sql_join. cbn [jtab jside jon snd]. rewrite base_rows.
    apply right_perm; [congruence|assumption..].
  - intros j a [<-|[]] Ha. cbn [jtab jon] in *. split; [exact (Hclean a Ha)|].
    apply in_app_or in Ha. destruct Ha; auto.
Qed.
Print Assumptions right_join_correct.

(** ** A RIGHT JOIN whose ON also compares two columns of the joined table: the compiler never returns. *)
Theorem right_join_hangs : forall cmpv d fuel p tb on w, p <> tb ->
  tab_mem (Some p) (related tb [] on) = true -> tab_mem (Some tb) (related tb [] on) = true ->
  run_query cmpv d fuel (Query [p] [Join tb SRight KNone on] w) = None.
Proof.
  intros cmpv d fuel p tb on w Hpt H1 H2. unfold run_query, optimize.
  rewrite (single_from (Query [p] [Join tb SRight KNone on] w) p eq_refl).
  cbn [qjoins existsb jside orb]. unfold right_rewrite. cbn [qfrom qjoins qwhere map].
  destruct fuel as [|f]; [reflexivity|]. cbn [select_loop].
  unfold next_selected at 1. cbn [fold_left]. unfold is_right at 1, jt_of at 1 2. cbn [t_type t_name t_related jside jtab jon jt_primary andb].
  rewrite H1. rewrite select_hangs; [reflexivity|].
  unfold next_selected. cbn [fold_left]. unfold is_right. cbn [jt_of t_type t_name t_related jside jtab jon andb]. now rewrite H2.
Qed.
Print Assumptions right_join_hangs.

(** ** Examples and refutations *)
(** Comparison of integers. *)
Definition icmp (o : cmp) (x y : val) : bool :=
  match x, y with
  | VInt a, VInt b =>
    match o with CEq => a =? b | CNe => negb (a =? b) | CLt => a <? b | CLe => a <=? b | CGt => b <? a | CGe => b <=? a end
  | _, _ => false
  end.
Lemma icmp_null : null_rejecting icmp.
Proof. intros o v. split; destruct v; reflexivity. Qed.
Lemma icmp_sym : eq_symmetric icmp.
Proof. intros x y. destruct x; destruct y; try reflexivity. cbn. apply Z.eqb_sym. Qed.

Definition ta := t "a". Definition tb := t "b". Definition tc := t "c".
Definition cc (tab name : text) : operand := OCol (Col (Some tab) name).
Definition kk (z : Z) : operand := OExpr [] (fun _ => VInt z).
Definition id_ := t "id". Definition x_ := t "x".
Definition r2 (i x : Z) : row := [(id_, VInt i); (x_, VInt x)].
Definition db3 (a b c : list row) : db := fun n =>
  if text_eqb n ta then a else if text_eqb n tb then b else if text_eqb n tc then c else [].
Definition eq_ab := ACmp CEq (cc tb id_) (cc ta id_).
Definition eq_ac := ACmp CEq (cc tc id_) (cc ta id_).
Definition eq_bc := ACmp CEq (cc tc id_) (cc tb id_).

(** The number of rows that come back, and the number SQL asks for. *)
Definition rows_of (d : db) (q : query) : option (res nat) :=
  match run_query icmp d 10 q with Some (Ok l) => Some (Ok (length l)) | Some (Err e) => Some (Err e) | None => None end.
Definition sql_rows (d : db) (q : query) : nat := length (sql_query icmp ta d q).

Definition three := db3 [r2 1 1; r2 2 2; r2 3 3] [r2 1 10; r2 2 20] [r2 1 100].

(** The hypotheses of the theorems above are met by ordinary queries, with non-trivial results. *)
Definition q_inner := Query [ta] [Join tb SNone KInner [eq_ab]; Join tc SNone KInner [eq_ac]] [ACmp CGt (cc ta x_) (kk 0)].
Example q_inner_wf : one_table ta q_inner.
Proof.
  split; [reflexivity|]. split.
  - cbn [q_inner qjoins scoped jtab jon]. split; [intros [H|[]]; discriminate|]. split.
    + intros a c [<-|[]] Hc. cbn in Hc. destruct Hc as [<-|[<-|[]]]; eexists; (split; [reflexivity|]); cbn; auto.
    + split; [intros [H|[H|[]]]; discriminate|]. split; [|exact I].
      intros a c [<-|[]] Hc. cbn in Hc. destruct Hc as [<-|[<-|[]]]; eexists; (split; [reflexivity|]); cbn; auto.
  - intros j [<-|[<-|[]]]; (split; [repeat constructor; intros []|]); intros a [<-|[]]; cbn; discriminate.
Qed.
Example q_inner_strict : forall j a, In j (qjoins q_inner) -> In a (jon j) -> strict_atom a.
Proof. intros j a [<-|[<-|[]]] [<-|[]]; cbn; auto. Qed.
Example q_inner_all : forall j, In j (qjoins q_inner) -> jkind j = KInner /\ jside j = SNone /\ linked ta j = true.
Proof. intros j [<-|[<-|[]]]; repeat split. Qed.
Example q_inner_runs : rows_of three q_inner = Some (Ok 1%nat) /\ sql_rows three q_inner = 1%nat.
Proof. split; reflexivity. Qed.
Example left_runs : rows_of three (Query [ta] [Join tb SLeft KNone [eq_ab]; Join tc SLeft KNone [eq_bc]] []) = Some (Ok 3%nat).
Proof. reflexivity. Qed.
Example comma_runs : let q := Query [ta; tb] [] [eq_ab; ACmp CGt (cc tb x_) (kk 15)] in
  rows_of three q = Some (Ok 1%nat) /\ sql_rows three q = 1%nat /\ tied (qwhere q) [ta] [tb].
Proof.
  split; [reflexivity|]. split; [reflexivity|]. split; [intros [H|[]]; discriminate|]. split; [|exact I].
  exists CEq, (cc tb id_), (cc ta id_), (Col (Some tb) id_), (cc ta id_). split; [now left|]. split; [reflexivity|].
  split; [left; split; reflexivity|]. exists ta. split; [reflexivity|now left].
Qed.
Example right_runs : let q := Query [tb] [Join ta SRight KNone [eq_ab]] [ACmp CGt (cc tb x_) (cc ta id_)] in
  rows_of three q = Some (Ok 2%nat) /\ length (sql_query icmp tb three q) = 2%nat.
Proof. split; reflexivity. Qed.

(** JOIN without INNER keeps the unmatched rows of the first table. *)
Theorem plain_join_refuted : exists d q, qjoins q = [Join tb SNone KNone [eq_ab]] /\
  rows_of d q = Some (Ok 3%nat) /\ sql_rows d q = 2%nat.
Proof. exists three, (Query [ta] [Join tb SNone KNone [eq_ab]] []). repeat split. Qed.

(** INNER JOIN of a table tied to another joined table only: the rows without a match are kept. *)
Theorem inner_chain_refuted : exists d q, Forall (fun j => jkind j = KInner) (qjoins q) /\
  rows_of d q = Some (Ok 2%nat) /\ sql_rows d q = 1%nat.
Proof.
  exists three, (Query [ta] [Join tb SNone KInner [eq_ab]; Join tc SNone KInner [eq_bc]] []).
  split; [repeat constructor|]. repeat split.
Qed.

(** LEFT JOIN next to an INNER JOIN loses the unmatched rows. *)
Theorem left_with_inner_refuted : exists d q,
  qjoins q = [Join tb SNone KInner [eq_ab]; Join tc SLeft KNone [eq_ac]] /\
  rows_of d q = Some (Ok 1%nat) /\ sql_rows d q = 2%nat.
Proof. exists three, (Query [ta] [Join tb SNone KInner [eq_ab]; Join tc SLeft KNone [eq_ac]] []). repeat split. Qed.

(** INNER JOIN c ON c.id = a.id AND c.x = COALESCE(b.x, 0): a match with b.x NULL is lost. *)
Definition coalesce0 (c : col) : operand :=
  OExpr [c] (fun vs => match vs with [VNone] => VInt 0 | [v] => v | _ => VNone end).
Theorem inner_coalesce_refuted : exists d q,
  Forall (fun j => jkind j = KInner /\ linked ta j = true) (qjoins q) /\
  rows_of d q = Some (Ok 0%nat) /\ sql_rows d q = 1%nat.
Proof.
  exists (db3 [r2 1 1] [[(id_, VInt 1); (x_, VNone)]] [r2 1 0]),
    (Query [ta] [Join tb SNone KInner [eq_ab];
                 Join tc SNone KInner [eq_ac; ACmp CEq (cc tc x_) (coalesce0 (Col (Some tb) x_))]] []).
  split; [repeat constructor|]. repeat split.
Qed.

(** FULL and RIGHT joins next to a tied INNER JOIN are executed as other joins instead of rejected. *)
Theorem full_with_inner_refuted : exists d q,
  qjoins q = [Join tb SNone KInner [eq_ab]; Join tc SFull KNone [eq_bc]] /\
  rows_of d q = Some (Ok 2%nat) /\ sql_rows d q = 3%nat.
Proof.
  exists (db3 [r2 1 1; r2 2 2] [r2 1 10; r2 2 20] [r2 1 100; r2 9 900]),
    (Query [ta] [Join tb SNone KInner [eq_ab]; Join tc SFull KNone [eq_bc]] []). repeat split.
Qed.

(** ON a.x = 1 is asked of the joined table's column of the same name. *)
Theorem on_other_table_refuted : exists d q,
  qjoins q = [Join tb SLeft KNone [eq_ab; ACmp CEq (cc ta x_) (kk 1)]] /\
  (exists l, run_query icmp d 10 q = Some (Ok l) /\
     map (fun e => cval ta e (Col (Some tb) x_)) l = [VNone; VInt 1]) /\
  map (fun e => cval ta e (Col (Some tb) x_)) (sql_query icmp ta d q) = [VInt 7; VNone].
Proof.
  exists (db3 [r2 1 1; r2 2 2] [r2 1 7; r2 2 1] []),
    (Query [ta] [Join tb SLeft KNone [eq_ab; ACmp CEq (cc ta x_) (kk 1)]] []).
  split; [reflexivity|]. split; [|reflexivity]. eexists. split; reflexivity.
Qed.

(** A joined column tied twice does not compile. *)
Theorem key_twice_rejected : forall d, run_query icmp d 10
  (Query [ta] [Join tb SLeft KNone [eq_ab; ACmp CEq (cc tb id_) (cc ta x_)]] []) = Some (Err CompileError).
Proof. reflexivity. Qed.

(** RIGHT JOIN: a constant condition in ON removes rows of the kept table. *)
Theorem right_const_refuted : exists d q,
  qjoins q = [Join tb SRight KNone [eq_ab; ACmp CEq (cc tb x_) (kk 10)]] /\ qwhere q = [] /\
  rows_of d q = Some (Ok 1%nat) /\ sql_rows d q = 2%nat.
Proof.
  exists three, (Query [ta] [Join tb SRight KNone [eq_ab; ACmp CEq (cc tb x_) (kk 10)]] []). repeat split.
Qed.

(** RIGHT JOIN ... WHERE a.id IS NULL: every row of the kept table comes back, matched or not. *)
Definition is_null (tab name : text) : atom :=
  AOther [Col (Some tab) name] (fun vs => match vs with [VNone] => true | _ => false end).
Theorem right_anti_join_refuted : exists d q,
  qjoins q = [Join tb SRight KNone [eq_ab]] /\ qwhere q = [is_null ta id_] /\
  rows_of d q = Some (Ok 2%nat) /\ sql_rows d q = 0%nat.
Proof. exists three, (Query [ta] [Join tb SRight KNone [eq_ab]] [is_null ta id_]). repeat split. Qed.

(** RIGHT JOIN ... WHERE b.x = 10 also asks a.x = 10. *)
Theorem right_where_refuted : exists d q,
  qjoins q = [Join tb SRight KNone [eq_ab]] /\ qwhere q = [ACmp CEq (cc tb x_) (kk 10)] /\
  (exists l, run_query icmp d 10 q = Some (Ok l) /\ map (fun e => cval ta e (Col (Some ta) id_)) l = [VNone]) /\
  map (fun e => cval ta e (Col (Some ta) id_)) (sql_query icmp ta d q) = [VInt 1].
Proof.
  exists three, (Query [ta] [Join tb SRight KNone [eq_ab]] [ACmp CEq (cc tb x_) (kk 10)]).
  split; [reflexivity|]. split; [reflexivity|]. split; [|reflexivity]. eexists. split; reflexivity.
Qed.

(** INNER JOIN after a RIGHT JOIN is executed as LEFT JOIN. *)
Theorem right_with_inner_refuted : exists d q,
  qjoins q = [Join tb SRight KNone [eq_ab]; Join tc SNone KInner [eq_bc]] /\
  rows_of d q = Some (Ok 2%nat) /\ sql_rows d q = 1%nat.
Proof. exists three, (Query [ta] [Join tb SRight KNone [eq_ab]; Join tc SNone KInner [eq_bc]] []). repeat split. Qed.

(** FROM a, b JOIN c: the JOIN is dropped. *)
Theorem comma_with_join_refuted : exists d q, qfrom q = [ta; tb] /\ qjoins q = [Join tc SNone KInner [eq_ac]] /\
  rows_of d q = Some (Ok 2%nat) /\ sql_rows d q = 1%nat.
Proof. exists three, (Query [ta; tb] [Join tc SNone KInner [eq_ac]] [eq_ab]). repeat split. Qed.

(** FROM a, b without a condition on b: the rows of a come back although b is empty. *)
Theorem comma_empty_refuted : exists d q, qfrom q = [ta; tb] /\ qjoins q = [] /\
  rows_of d q = Some (Ok 3%nat) /\ sql_rows d q = 0%nat.
Proof. exists (db3 [r2 1 1; r2 2 2; r2 3 3] [] []), (Query [ta; tb] [] []). repeat split. Qed.

(** A RIGHT JOIN on which the compiler does not return. *)
Example right_hangs_here : forall fuel d, run_query icmp d fuel
  (Query [ta] [Join tb SRight KNone [eq_ab; ACmp CEq (cc tb id_) (cc tb x_)]] []) = None.
Proof. intros. apply right_join_hangs; [discriminate|reflexivity..]. Qed.
(** ... and one to which [right_join_correct] applies. *)
Example right_applies : forall d cs, (forall c, In c cs -> ctab c <> None) ->
  forall res, run_query icmp d 2 (Query [ta] [Join tb SRight KNone [eq_ab]] [ACmp CGt (cc ta x_) (cc tb id_)]) = Some (Ok res) ->
  Permutation (map (project tb cs) res)
    (map (project ta cs) (sql_query icmp ta d (Query [ta] [Join tb SRight KNone [eq_ab]] [ACmp CGt (cc ta x_) (cc tb id_)]))).
Proof.
  intros d cs Hcs res H. apply (@right_join_correct icmp d 0%nat ta tb KNone [eq_ab] [ACmp CGt (cc ta x_) (cc tb id_)]);
    [exact icmp_null|exact icmp_sym|discriminate|discriminate| | |exact Hcs| | |discriminate| |exact H].
  - intros a c [<-|[]] [<-|[<-|[]]]; eexists; (split; [reflexivity|]); cbn; auto.
  - intros a c [<-|[]] [<-|[<-|[]]]; eexists; (split; [reflexivity|]); cbn; auto.
  - intros a [<-|[]]. reflexivity.
  - intros a [<-|[<-|[]]]; [discriminate|exact I].
  - intros b a _ _ H'. discriminate.
Qed.

(** Queries without RIGHT JOIN always come back. *)
Theorem no_right_returns : forall cmpv d fuel q, (length (qfrom q) > 1)%nat \/ ~ has_right q ->
  run_query cmpv d fuel q <> None.
Proof.
  intros cmpv d fuel q H. unfold run_query.
  assert (Ho : exists q', optimize fuel q = Some q').
  { unfold optimize. set (q1 := multi_select q).
    assert (Hr : existsb (fun j => match jside j with SRight => true | _ => false end) (qjoins q1) = false).
    { apply no_right. intros j Hj E. unfold q1, multi_select in Hj. destruct (qfrom q) as [|p [|t1 r]].
      - destruct H as [H|H]; [cbn in H; lia|]. apply H. now exists j.
      - destruct H as [H|H]; [cbn in H; lia|]. apply H. now exists j.
      - cbn [qjoins] in Hj. revert Hj. generalize [p]. generalize (t1 :: r). clear - E.
        induction l as [|tb l IH]; intros can Hj; [destruct Hj|]. cbn [multi_joins] in Hj.
        destruct Hj as [<-|Hj]; [discriminate|]. exact (IH _ Hj). }
    destruct (qjoins q1) as [|j l]; [eauto|]. rewrite Hr.
    destruct (existsb (fun j0 => match jkind j0 with KInner => true | _ => false end) (qjoins q1)); eexists; reflexivity. }
  destruct Ho as (q' & ->). discriminate.
Qed.
Print Assumptions no_right_returns.


Lemma selection_ends : forall (rank : text -> nat) js,
  (forall j tb, In j js -> is_right j = true -> tab_mem (Some tb) (t_related j) = true -> (rank tb < rank (t_name j))%nat) ->
  forall bound, (forall j, In j js -> (rank (t_name j) <= bound)%nat) ->
  forall n sel, (bound - rank (t_name sel) <= n)%nat -> (rank (t_name sel) <= bound)%nat ->
  exists s, select_loop (S n) sel js = Some s.
Proof.
  intros rank js Hrank bound Hb.
  assert (Hnext : forall s j, next_selected s js = Some j -> In j js /\ (rank (t_name s) < rank (t_name j))%nat).
  { intros s j. unfold next_selected.
    assert (Hg : forall l acc, (forall x, In x l -> In x js) ->
      fold_left (fun acc j => if is_right j && tab_mem (Some (t_name s)) (t_related j) then Some j else acc) l acc = Some j ->
      acc = Some j \/ (In j js /\ (rank (t_name s) < rank (t_name j))%nat)).
    { induction l as [|x l IH]; intros acc Hsub H; [now left|]. cbn [fold_left] in H.
      apply IH in H; [|intros y Hy; apply Hsub; now right].
      destruct (is_right x) eqn:E1; cbn [andb] in H; [|exact H].
      destruct (tab_mem (Some (t_name s)) (t_related x)) eqn:E2; [|exact H].
      destruct H as [H|H]; [|now right]. injection H as <-. right. split; [apply Hsub; now left|].
      apply Hrank; [apply Hsub; now left|exact E1|exact E2]. }
    intros H. destruct (Hg js None (fun x Hx => Hx) H) as [Hx|Hx]; [discriminate|exact Hx]. }
  induction n as [|n IH]; intros sel Hn Hs.
  - cbn [select_loop]. destruct (next_selected sel js) as [j|] eqn:E; [|eauto].
    destruct (Hnext _ _ E) as [Hj Hlt]. specialize (Hb j Hj). lia.
  - change (exists s, match next_selected sel js with None => Some sel | Some j => select_loop (S n) j js end = Some s).
    destruct (next_selected sel js) as [j|] eqn:E; [|eauto].
    destruct (Hnext _ _ E) as [Hj Hlt]. specialize (Hb j Hj). apply IH; lia.
Qed.

(** Position of a table in FROM and the joins. *)
Fixpoint position (l : list text) (x : text) : nat :=
  match l with [] => O | y :: r => if text_eqb y x then O else S (position r x) end.
Lemma position_bound : forall l x, In x l -> (position l x < length l)%nat.
Proof.
  induction l as [|y l IH]; intros x H; [destruct H|]. cbn [position length].
  destruct (text_eqb y x) eqn:E; [lia|]. destruct H as [->|H]; [rewrite text_eqb_refl in E; discriminate|].
  specialize (IH x H). lia.
Qed.
Lemma position_app : forall l1 l2 x, In x l1 -> position (l1 ++ l2) x = position l1 x.
Proof.
  induction l1 as [|y l IH]; intros l2 x H; [destruct H|]. cbn [app position].
  destruct (text_eqb y x) eqn:E; [reflexivity|]. destruct H as [->|H]; [rewrite text_eqb_refl in E; discriminate|].
  now rewrite IH.
Qed.
Lemma position_new : forall l1 l2 x, ~ In x l1 -> position (l1 ++ x :: l2) x = length l1.
Proof.
  induction l1 as [|y l IH]; intros l2 x H; cbn [app position length]; [now rewrite text_eqb_refl|].
  destruct (text_eqb y x) eqn:E; [apply text_eqb_spec in E; subst; exfalso; apply H; now left|].
  rewrite IH; [reflexivity|]. intros Hi. apply H. now right.
Qed.

(** The compiler comes back when each ON reads only tables up to the joined one and no RIGHT JOIN compares
    two columns of the joined table. *)
Theorem compilation_ends : forall cmpv d fuel p q, qfrom q = [p] -> scoped [p] (qjoins q) ->
  (forall j, In j (qjoins q) -> jside j = SRight -> linked (jtab j) j = false) ->
  (length (qjoins q) < fuel)%nat -> run_query cmpv d fuel q <> None.
Proof.
  intros cmpv d fuel p q Hf Hsc Hself Hfuel. unfold run_query.
  assert (Hr : exists q', right_rewrite fuel q = Some q').
  { unfold right_rewrite. rewrite Hf.
    set (names := p :: map jtab (qjoins q)).
    assert (Hs : exists s, select_loop fuel (jt_primary p (qwhere q)) (map jt_of (qjoins q)) = Some s).
    { destruct fuel as [|n]; [lia|].
      apply (@selection_ends (position names) (map jt_of (qjoins q))) with (bound := length (qjoins q)).
      - intros j tb Hj Hri Hm. apply in_map_iff in Hj. destruct Hj as (j0 & <- & Hj).
        cbn [jt_of t_name t_related] in *.
        assert (Hs0 : jside j0 = SRight) by (unfold is_right in Hri; cbn [jt_of t_type] in Hri; destruct (jside j0); congruence).
        specialize (Hself j0 Hj Hs0). rewrite <- linked_rel in Hself. unfold rel in Hself.
        assert (Hne : tb <> jtab j0) by congruence.
        (* the tables an ON reads are those before the join *)
        assert (Hread : exists before after, names = before ++ jtab j0 :: after /\ ~ In (jtab j0) before /\
                  reads (jtab j0 :: before) (jon j0)).
        { unfold names. clear - Hsc Hj.
          assert (Hgen : forall js ts pre, scoped ts js -> (forall x, In x ts <-> In x pre) -> In j0 js ->
            exists before after, pre ++ map jtab js = before ++ jtab j0 :: after /\ ~ In (jtab j0) before /\
              reads (jtab j0 :: before) (jon j0)).
          { induction js as [|j js IH]; intros ts pre Hs Heq Hi; [destruct Hi|]. cbn [scoped] in Hs. destruct Hs as (H1 & H2 & H3).
            destruct Hi as [<-|Hi].
            - exists pre, (map jtab js). split; [reflexivity|]. split; [intros Hx; apply H1, Heq, Hx|].
              intros a c Ha Hc. destruct (H2 a c Ha Hc) as (x & E & [Ex|Hx]); exists x; (split; [exact E|]);
                [left; exact Ex|right; now apply Heq].
            - destruct (IH (jtab j :: ts) (pre ++ [jtab j]) H3) as (bf & af & E & Hn & Hrd).
              + intros x. split; intros Hx.
                * apply in_or_app. destruct Hx as [->|Hx]; [right; now left|left; now apply Heq].
                * apply in_app_or in Hx. destruct Hx as [Hx|[->|[]]]; [right; now apply Heq|now left].
              + exact Hi.
              + exists bf, af. split; [|auto]. cbn [map]. rewrite <- E, <- app_assoc. reflexivity. }
          destruct (Hgen (qjoins q) [p] [p] Hsc) as (bf & af & E & Hn & Hrd); [intros x; reflexivity|exact Hj|].
          exists bf, af. split; [|auto]. rewrite <- E. reflexivity. }
        destruct Hread as (bf & af & En & Hn & Hrd). rewrite En, position_new by exact Hn.
        assert (Hin : In tb bf).
        { unfold tab_mem in Hm. apply existsb_exists in Hm. destruct Hm as (y & Hy & Ey).
          unfold related in Hy. apply in_flat_map in Hy. destruct Hy as (a & Ha & Hy).
          destruct (classify (jtab j0) [] a) as [l| |] eqn:Ec; [|destruct Hy..].
          unfold classify in Ec. destruct a as [o x y0| |]; [|discriminate..].
          destruct (on_value (jtab j0) [] x y0) as [v|] eqn:Ev; [|discriminate].
          assert (El : l = map ctab (ocolumns v)) by (destruct (ocolumns v); [discriminate|now injection Ec as <-]).
          subst l. apply in_map_iff in Hy. destruct Hy as (c & Hc & Hi).
          assert (Hac : In c (acols (ACmp o x y0))).
          { cbn [acols]. apply in_or_app. destruct (on_value_spec _ _ _ _ Ev) as (c0 & _ & [[_ ->]|[_ ->]]); auto. }
          destruct (Hrd _ _ Ha Hac) as (z & Hz & Hzi). subst y. rewrite Hz in Ey. cbn [tab_eqb] in Ey.
          apply text_eqb_spec in Ey. subst z. destruct Hzi as [E|Hzi]; [congruence|exact Hzi]. }
        rewrite position_app by exact Hin. now apply position_bound.
      - intros j Hj. apply in_map_iff in Hj. destruct Hj as (j0 & <- & Hj). cbn [jt_of t_name].
        assert (Hp : (position names (jtab j0) < length names)%nat) by (apply position_bound; right; now apply in_map).
        unfold names in Hp at 2. cbn [length] in Hp. rewrite map_length in Hp. lia.
      - cbn [jt_primary t_name]. unfold names at 1. cbn [position]. rewrite text_eqb_refl. lia.
      - cbn [jt_primary t_name]. unfold names at 1. cbn [position]. rewrite text_eqb_refl. lia. }
    destruct Hs as (s & ->). destruct (t_type s); [eauto|..];
      destruct (resort _ _ _ _) as [sorted rest]; destruct (existsb is_right (sorted ++ rest)); eauto. }
  assert (Ho : exists q', optimize fuel q = Some q').
  { unfold optimize. rewrite (single_from q p Hf). destruct (qjoins q) as [|j l]; [eauto|].
    destruct Hr as (q' & ->). destruct (existsb (fun j => match jside j with SRight => true | _ => false end) (j :: l));
      destruct (existsb _ _); eauto. }
  destruct Ho as (q' & ->). discriminate.
Qed.
Print Assumptions compilation_ends.

(** The ON condition is applied as written when constants are compared with columns of the joined table
    only and keys do not read it on the other side. *)
Theorem on_applied_as_written : forall cmpv p tb on pl e r, eq_symmetric cmpv ->
  (forall a, In a on -> on_clean tb a /\ qualified a) -> parse_on cmpv tb (Plan [] [] []) on = Ok pl ->
  joins_row cmpv p tb pl e r = alltrue cmpv p on ((tb, Some r) :: e).
Proof. intros cmpv p tb on pl e r Hs Hc H. rewrite (@parse_on_sound cmpv p tb on _ pl e r Hs Hc H). reflexivity. Qed.
Print Assumptions on_applied_as_written.

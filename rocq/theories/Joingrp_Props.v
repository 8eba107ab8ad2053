(** C238, C239: SELECT with aggregates over joined tables. *)
From Coq Require Import SpecFloat Permutation Sorting.Sorted.
From Verif Require Import Base PyVal Utils_Model Calc_Model Calc_Proofs Expr_Syntax Expr_Model Expr_Spec Expr_Proofs Expr_Props
  Having_Model Having_Spec Having_Proofs Having_Props Agg_Spec Reduce_Spec Group_Syntax Group_Model Group_Spec Group_Proofs Group_Props
  Inner_Syntax Inner_Model Inner_Spec Inner_Proofs Inner_Props Whole_Syntax Cast_Syntax Whole_Model Whole_Spec Whole_Proofs
  Whole_Props Select_Model Select_Spec Select_Proofs Select_Props Joins_Syntax Joins_Spec Joins_Model Joins_Proofs Joins_Accept Joins_Props
  
  Joinsel_Syntax Joinsel_Spec Joinsel_Model Joinsel_Proofs Joinsel_Props Joingrp_Syntax Joingrp_Spec Joingrp_Model Joingrp_Proofs.
Open Scope Z_scope.

Section Props.
Variable cmpv : cmp -> val -> val -> bool.
Variable frepr : spec_float -> text.
Variable ident : val -> val -> bool.
Variable ext : text -> option (list val -> val).
Variable lib : text -> list val -> val.
Variable tt : text -> bool.
Variable str_of : val -> text.
Variable pick : list Group_Model.row -> Group_Model.row.
Variable nested : text -> Group_Model.row -> val.
Variable raw : list (text * state) -> val.
Variable state_name : path -> text.
Variable other : expr -> res hcol.
Variable rematch : text -> val -> bool.
Variable leK : val -> val -> bool.
Variable d : db.
Variable p : text.
Hypothesis NR : null_rejecting cmpv.
Hypothesis SY : eq_symmetric cmpv.
Hypothesis NN : ext (t "neg") = None.
Hypothesis TK : total_preorder leK.
Hypothesis EQ : forall a b, pyeq a b = true -> leK a b = true /\ leK b a = true.
Hypothesis HP : forall rs, rs <> [] -> In (pick rs) rs.
Hypothesis INJ : forall p q, state_name p = state_name q -> p = q.
Notation fn := (sql_fn frepr ident ext lib).
Notation run := (run_joingrp cmpv frepr ident ext lib str_of pick nested raw state_name other rematch leK d).
Notation run_q := (run_group_compiled cmpv frepr ident ext lib str_of pick nested raw state_name other rematch leK d).
Notation gsel := (group_select cmpv frepr ident ext lib rematch).

(** A column of the first table on a combination. *)
Definition first_field (n : text) (e : env) : val := cval p e (Col (Some p) n).

(** The joined rows are sorted as their rows of the first table were. *)
Lemma joined_source : forall q x0, qfrom q = [p] -> (forall j, In j (qjoins q) -> jtab j <> p) -> (forall a, In a (qwhere q) -> upright a) ->
  run_joins cmpv d p (qjoins q) [] = Ok x0 ->
  exists good, execute cmpv d q = Ok good /\ forall need o, (forall j, In j (qjoins q) -> In (jtab j) need) ->
    exists es, run_joins cmpv d p (fst (needed_joins need (qjoins q)))
                 (map (fun r => [(p, Some r)]) (sort (le_by val leK Joinsel_Model.cell o) (filter (meets cmpv p (qwhere q)) (d p)))) = Ok es /\
               keep (predicate cmpv p (qwhere q)) es = sort (le_by val leK first_field o) good.
Proof.
  intros q x0 Hf Hp Up E0. destruct (run_joins_flat cmpv d p _ _ _ E0) as (J & HJ & HP'). clear E0 x0.
  set (K := fun r : Joins_Syntax.row => J [(p, Some r)]).
  assert (KR : forall r x, In x (K r) -> row_of p x = r).
  { intros r x X. destruct (HP' _ _ X) as (pre & -> & Q). apply row_of_primary. intros n N. apply Q in N. apply in_map_iff in N.
    destruct N as (j & <- & I). exact (Hp j I). }
  set (es0 := flat_map K (filter (meets cmpv p (qwhere q)) (d p))).
  exists (keep (predicate cmpv p (qwhere q)) es0). split.
  - unfold execute. rewrite Hf, HJ. f_equal. rewrite flat_map_single. change (fun x => J [(p, Some x)]) with K. unfold es0.
    rewrite keep_residual, !filter_flat_map, flat_map_filter. apply flat_map_ext_in. intros r R.
    destruct (meets cmpv p (qwhere q) r) eqn:M.
    + apply filter_ext_in'. intros x X. rewrite (where_split cmpv p SY (qwhere q) x Up), (KR r x X), M. reflexivity.
    + apply filter_none. intros x X. rewrite (where_split cmpv p SY (qwhere q) x Up), (KR r x X), M. reflexivity.
  - intros need o Sel. destruct (needed_all (qjoins q) need Sel) as (rest & ->). cbn [fst]. eexists. split; [apply HJ|].
    rewrite flat_map_single. change (fun x => J [(p, Some x)]) with K.
    assert (TR : total_preorder (le_by val leK Joinsel_Model.cell o)).
    { pose proof (lex_total Joins_Syntax.row val leK TK (map (fun k => (Joinsel_Model.cell (fst k), snd k)) o)) as [T1 T2].
      split; [intros a b; rewrite !le_by_lex; apply T1|intros a b c; rewrite !le_by_lex; apply T2]. }
    assert (TE : total_preorder (le_by val leK first_field o)).
    { pose proof (lex_total env val leK TK (map (fun k => (first_field (fst k), snd k)) o)) as [T1 T2].
      split; [intros a b; rewrite !le_by_lex; apply T1|intros a b c; rewrite !le_by_lex; apply T2]. }
    assert (LE : forall x y, le_by val leK first_field o x y = le_by val leK Joinsel_Model.cell o (row_of p x) (row_of p y)).
    { intros x y. rewrite !le_by_lex. clear. induction o as [|[n b] o IH]; [reflexivity|]. cbn [map lex_le fst snd]. rewrite IH.
      unfold first_field. rewrite <- !row_of_cell. destruct b; reflexivity. }
    rewrite (flat_sort _ _ K (row_of p) _ (le_by val leK first_field o) _ TR LE KR). fold es0.
    destruct (predicate cmpv p (qwhere q)); cbn [keep]; [symmetry; apply sort_filter; exact TE|reflexivity].
Qed.

Lemma tables_have : forall cs c tb, In c cs -> ctab c = Some tb -> In tb (tables_of cs).
Proof. intros cs c tb I E. unfold tables_of. apply in_flat_map. exists c. split; [exact I|]. rewrite E. left. reflexivity. Qed.
Lemma registered_first : forall cs n, In n (registered p cs) -> exists c, In c cs /\ is_first p c n.
Proof.
  intros cs n I. unfold registered in I. apply in_map_iff in I. destruct I as (c & E & I). apply filter_In in I. destruct I as [I F]. exists c. split; [exact I|].
  split; [exact E|]. unfold of_primary in F. destruct (ctab c) as [tb|]; [right; apply text_eqb_spec in F; subst tb; reflexivity|left; reflexivity].
Qed.

(** The tables read by the select list, by GROUP BY and by WHERE. *)
Definition reads (st : statement) (q : Joins_Syntax.query) : list text :=
  tables_of (map named (items_read st) ++ flat_map acolumns (Joinsel_Model.residual cmpv p (qwhere q))).
(** ORDER BY names items only: it is taken. *)
Lemma order_taken : forall (sel : select env output) (names : list text) l, s_schema _ _ sel = Some names -> s_order _ _ sel = map (fun nd => Select_Model.OCol [] (fst nd) (snd nd)) l ->
  (forall n b, In (n, b) l -> In n names) -> exists r, compile_order env output sel = Ok r.
Proof.
  intros sel names l Sc So H. unfold compile_order. rewrite So, Sc.
  assert (K : order_keys env output sel (map (fun nd => Select_Model.OCol [] (fst nd) (snd nd)) l) = Ok (map (fun nd => (fst nd, snd nd, pushed env output sel [] (fst nd))) l)).
  { clear. induction l as [|k l IH]; [reflexivity|]. cbn [map order_keys order_key bind]. rewrite IH. reflexivity. }
  rewrite K. cbn [bind]. cbv zeta.
  match goal with |- context [if ?b then _ else _] => destruct b end; [|eauto].
  assert (F : forallb (fun k => memb (fst k) names) (map fst (map (fun nd => (fst nd, snd nd, pushed env output sel [] (fst nd))) l)) = true).
  { apply forallb_forall. intros k I. rewrite map_map in I. apply in_map_iff in I. destruct I as ([c b] & <- & I). cbn [fst]. apply memb_In. exact (H c b I). }
  rewrite F. eauto.
Qed.
(** The compiled task on the joined rows. *)
Lemma grouped_runs : forall aliased g q x0, grouped_over p g -> (forall m alias e, In (alias, e) (st_items (g_rest g)) -> ~ mentions (state_name m) e) ->
  qfrom q = [p] -> (forall j, In j (qjoins q) -> jtab j <> p) -> (forall j, In j (qjoins q) -> read_by (g_rest g) (jtab j)) ->
  (forall a, In a (qwhere q) -> upright a) -> (forall c, condition_column q c -> condition_column (g_from g) c) ->
  run_joins cmpv d p (qjoins q) [] = Ok x0 -> known_tables p (qjoins q) (reads (g_rest g) q) = true ->
  exists es, execute cmpv d q = Ok es /\
    (summable_groups tt fn equal_keys (g_rest g) (map (view p) es) ->
     exists l, run_q aliased (g_rest g) q = Ok l /\ grouped_result tt fn str_of leK equal_keys (g_rest g) (map (view p) es) l).
Proof.
  intros aliased g q x0 (W0 & PWr & PH & PL & NoDot & O) FR Hf Hp Sel Up Cond E0 Kn. set (st := g_rest g) in *. rewrite Forall_forall in O.
  remember (run_q aliased st q) as rs eqn:H. symmetry in H.
  unfold run_group_compiled in H. rewrite Hf in H.
  rewrite E0 in H. cbn [bind] in H. cbv zeta in H. fold (reads st q) in H. rewrite Kn in H. clear Kn.
  set (need := reads st q) in H.
  destruct (grouped_config frepr ident ext state_name INJ _ PWr FR) as (cfg & C & Names & NA & UA). cbn [w_items] in Names, UA. rewrite C in H. cbn [bind] in H.
  destruct (having_whole frepr ident ext lib tt NN other rematch st (map fst (g_schema cfg)) PH) as (hav & Hh & HV); [rewrite Names; auto|].
  rewrite Hh in H. cbn [bind] in H.
  set (sel := gsel aliased p q st cfg hav) in *.
  destruct (joined_source q x0 Hf Hp Up E0) as (good & Ex & Src). exists good. split; [exact Ex|]. intros SG.
  assert (AP : s_aggregate _ _ sel = Some (map fst (g_agg cfg), [])).
  { unfold sel, group_select, aggregate_part. cbn [s_aggregate]. destruct (g_agg cfg); [destruct (NA eq_refl)|reflexivity]. }
  assert (HA : has_aggregates _ _ sel = true) by (unfold has_aggregates; rewrite AP; destruct (g_agg cfg); [destruct (NA eq_refl)|reflexivity]).
  assert (K : select_kind _ _ sel = Ok KComputed) by (unfold select_kind; rewrite HA; reflexivity).
  assert (HK : forall l, keep (s_having env output sel) l = filter (fun o => holds tt fn (st_having st) (column o)) l).
  { intros m. unfold sel, group_select. cbn [s_having]. apply keep_as. intros x. etransitivity; [|exact (HV x)]. destruct hav; reflexivity. }
  destruct (order_taken sel (map fst (g_schema cfg)) (st_order st) eq_refl eq_refl) as ([o ps] & OC).
  { intros n b I. destruct (O _ I) as (e & J & _). rewrite Names. apply (in_map fst) in J. exact J. }
  destruct (compile_select env output sel) as [k|] eqn:Ek.
  2:{ exfalso. unfold compile_select in Ek. rewrite OC in Ek. cbn [bind fst snd] in Ek. destruct (compile_limit env output sel ps). rewrite K in Ek. discriminate Ek. }
  cbn [bind] in H.
  assert (Ek' := Ek). unfold compile_select in Ek'. rewrite OC in Ek'. cbn [bind fst snd] in Ek'.
  destruct (compile_limit env output sel ps) as [pl lim] eqn:CL. rewrite K in Ek'. cbn [bind] in Ek'.
  assert (TL : t_limit k = 0) by (exact (no_limit_any env sel k Ek HA)).
  assert (Kk : t_kind k = KComputed /\ t_predicate k = predicate cmpv p (qwhere q) /\ t_having k = s_having _ _ sel /\ t_orders k = o /\ t_pipelines k = pl)
    by (injection Ek' as <-; repeat split).
  destruct Kk as (Kk & Kp & Kh & Ko & Kl). rewrite TL, Kk, Kp, Kh, Ko, Kl in H. change (take 0 ?x) with x in H.
  destruct (Src need o) as (es & Rj & Es).
  { intros j I. destruct (Sel j I) as (m & Em & M). unfold need, reads. eapply tables_have; [|exact Em]. apply in_or_app. left. apply in_map. unfold items_read. apply in_or_app.
    destruct M as [(n & e & Ie & M)|(kk & Ig & M)]; [left|right]; apply in_flat_map.
    - exists (n, e). split; [exact Ie|]. apply columns_mentions. exact M.
    - exists kk. split; [exact Ig|]. destruct kk as [b m'|e]; cbn [column_of_key key_reads] in *; [left; symmetry; exact M|apply columns_mentions; exact M]. }
  rewrite Rj in H. cbn [bind] in H. rewrite Es in H.
  assert (Pushed : forall n dd, In (n, dd) (st_order st) -> pushed _ _ sel [] n = true ->
     exists m b, In (n, ECol m) (st_items st) /\ In (KeyCol b m) (st_group st) /\ forall x, first_field n x = view p x m).
  { intros n dd I P. unfold pushed in P. rewrite AP in P. unfold sel, group_select in P. cbn [s_schema s_columns s_table] in P. rewrite Names in P.
    destruct (O _ I) as (e & J & X). cbn [fst] in J, X. destruct (negb (memb n (map fst (g_agg cfg))) && negb (memb n [])) eqn:B; [|discriminate P].
    apply andb_prop in B. destruct B as [B _]. apply negb_true_iff in B.
    destruct X as [(m & b & -> & F & G)|[U|U]].
    - exists m, b. split; [exact J|]. split; [exact G|]. intros x. unfold first_field, view. destruct F as [F1 F2]. unfold cval. rewrite F1. cbn [ctab cname].
      destruct F2 as [->| ->]; reflexivity.
    - exfalso. apply UA in J; [|exact U]. apply memb_In in J. congruence.
    - exfalso. assert (Ms : memb n (map fst (st_items st)) = true) by (apply memb_In; apply (in_map fst) in J; exact J).
      cbn [w_items] in P. rewrite Ms in P. cbn [negb] in P. rewrite andb_false_r, orb_false_r in P.
      assert (P' : memb n (primary_names cmpv p q st) = true) by (destruct (has_alias env output _) in P; [discriminate|exact P]).
      apply memb_In in P'. unfold primary_names in P'. apply registered_first in P'. destruct P' as (c & Ic & F). apply U.
      rewrite !in_app_iff in Ic. destruct Ic as [Ic|[Ic|Ic]].
      + apply in_map_iff in Ic. destruct Ic as (m & <- & Ic). left. exists m. split; [|exact F].
        rewrite !in_app_iff in Ic. destruct Ic as [Ic|[Ic|Ic]].
        * left. apply in_flat_map in Ic as ([m' e'] & I' & J'). exists m', e'. split; [exact I'|]. apply columns_mentions. exact J'.
        * right. right. right. apply in_flat_map in Ic as ([b m'|e'] & I' & J'); [destruct J'|]. exists e'. split; [exact I'|]. exact (proj2 (operand_columns_in m e' J')).
        * right. right. left. fold st. destruct (st_having st) as [e'|] eqn:E; [|destruct Ic]. destruct (PH e' E) as [Cc _].
          destruct (having_columns_in m e' Cc Ic) as (x & A1 & B1 & M1). exists e', x. auto.
      + right. exists c. split; [|exact F]. apply Cond. left. apply in_flat_map in Ic as (a & Ia & Ic). apply filter_In in Ia. exists a. split; [exact (proj1 Ia)|exact Ic].
      + right. exists c. split; [|exact F]. apply Cond. right. apply in_flat_map in Ic as (j & Ij & Ic). apply in_flat_map in Ic as (a & Ia & Ic). exists j, a. auto. }
  destruct (grouped_core frepr ident ext lib tt str_of pick nested raw state_name leK NN TK EQ HP INJ env (view p) first_field st cfg sel good o ps PWr FR C W0 HK eq_refl Pushed OC SG)
    as (grows & RQ & GR).
  assert (RQ' : Group_Model.run_query frepr ident ext lib str_of pick nested raw cfg (map (read p) (sort (le_by val leK first_field o) good)) = Ok grows) by exact RQ.
  rewrite RQ' in H. cbn [bind] in H. rewrite <- H. eexists. split; [reflexivity|]. clear H rs.
  remember (fold_left (apply_pipeline output val leK Whole_Model.field) pl (keep (s_having env output sel) grows)) as l eqn:H. symmetry in H.
  (* the page *)
  set (agg := fun _ : list env => grows).
  pose proof (select_paged env output val leK first_field Whole_Model.field (fun _ => []) agg (fun _ => []) (fun _ => []) sel good) as Pg.
  assert (R1 : forall src, run_select env output val leK first_field Whole_Model.field (fun _ => []) agg (fun _ => []) (fun _ => []) sel src = Ok l).
  { intros src. unfold run_select. rewrite Ek. cbn [bind]. f_equal. unfold run_task. rewrite Kk, Kh, Kl. cbn [compute]. exact H. }
  assert (R2 : forall src, run_select env output val leK first_field Whole_Model.field (fun _ => []) agg (fun _ => []) (fun _ => []) (with_limit sel None None) src =
     Ok (fold_left (apply_pipeline output val leK Whole_Model.field) ps (keep (s_having _ _ sel) grows))).
  { intros src. unfold run_select, compile_select. rewrite order_with_limit, OC. cbn [bind snd fst]. unfold compile_limit. cbn [s_limit s_offset with_limit]. change (negb (0 =? 0) || (0 <? 0))%bool with false. cbv iota zeta.
    change (select_kind env output (with_limit sel None None)) with (select_kind env output sel). rewrite K. cbn [bind]. unfold run_task. cbn [t_pipelines t_having t_kind compute]. reflexivity. }
  rewrite R1, R2 in Pg. cbn [bind] in Pg. assert (El : l = Joinsel_Spec.paged (st_limit st) (st_offset st) (fold_left (apply_pipeline output val leK Whole_Model.field) ps (keep (s_having _ _ sel) grows))).
  { assert (Pg' := Pg (ltac:(unfold collapses; rewrite HA; reflexivity)) PL). apply Calc_Proofs.Ok_inj in Pg'. exact Pg'. }
  rewrite El. exact GR.
Qed.
(** The same when the statement is known to run. *)
Lemma grouped_rows : forall aliased g q l, grouped_over p g -> (forall m alias e, In (alias, e) (st_items (g_rest g)) -> ~ mentions (state_name m) e) ->
  qfrom q = [p] -> (forall j, In j (qjoins q) -> jtab j <> p) -> (forall j, In j (qjoins q) -> read_by (g_rest g) (jtab j)) ->
  (forall a, In a (qwhere q) -> upright a) -> (forall c, condition_column q c -> condition_column (g_from g) c) ->
  run_q aliased (g_rest g) q = Ok l ->
  exists es, execute cmpv d q = Ok es /\
    (summable_groups tt fn equal_keys (g_rest g) (map (view p) es) ->
     grouped_result tt fn str_of leK equal_keys (g_rest g) (map (view p) es) l).
Proof.
  intros aliased g q l GO FR Hf Hp Sel Up Cond H. set (st := g_rest g) in *.
  assert (KnE : exists x0, run_joins cmpv d p (qjoins q) [] = Ok x0 /\ known_tables p (qjoins q) (reads st q) = true).
  { unfold run_group_compiled in H. rewrite Hf in H. destruct (run_joins cmpv d p (qjoins q) []) as [x0|] eqn:E0; [|discriminate]. cbn [bind] in H. cbv zeta in H.
    exists x0. split; [reflexivity|]. unfold reads. destruct (known_tables _ _ _); [reflexivity|discriminate]. }
  destruct KnE as (x0 & E0 & Kn). destruct (grouped_runs aliased g q x0 GO FR Hf Hp Sel Up Cond E0 Kn) as (es & Ex & G). exists es. split; [exact Ex|].
  intros SG. destruct (G SG) as (l' & R & GR). fold st in R. rewrite H in R. apply Calc_Proofs.Ok_inj in R. subst l'. exact GR.
Qed.

(** *** LEFT JOIN *)
(** C238: every join is a LEFT JOIN, and each joined table is read by the select list or by GROUP BY. *)
Theorem left_grouped : forall fuel aliased g l, one_table p (g_from g) ->
  (forall j, In j (qjoins (g_from g)) -> jside j = SLeft /\ jkind j = KNone) ->
  (forall j, In j (qjoins (g_from g)) -> read_by (g_rest g) (jtab j)) -> (forall a, In a (qwhere (g_from g)) -> upright a) ->
  grouped_over p g -> (forall m alias e, In (alias, e) (st_items (g_rest g)) -> ~ mentions (state_name m) e) ->
  summable_groups tt fn equal_keys (g_rest g) (joined cmpv p d (g_from g)) ->
  run fuel aliased g = Some (Ok l) -> grouped_result tt fn str_of leK equal_keys (g_rest g) (joined cmpv p d (g_from g)) l.
Proof.
  intros fuel aliased g l One Left Sel Up GO FR SG H. pose proof One as (Hf & Hsc & Hpl).
  assert (Ho : optimize fuel (g_from g) = Some (g_from g)).
  { unfold optimize. rewrite (single_from _ _ Hf). rewrite no_right by (intros j Hj E; destruct (Left j Hj); congruence).
    rewrite no_inner by (intros j Hj E; destruct (Left j Hj); congruence). now destruct (qjoins (g_from g)). }
  unfold run_joingrp in H. rewrite Ho in H. injection H as H.
  destruct (grouped_rows aliased g (g_from g) l GO FR Hf) as (es & Ex & G); try assumption.
  - apply (scoped_neq _ [p]); [now left|exact Hsc].
  - auto.
  - pose proof (left_joins_correct cmpv d fuel p (g_from g) NR SY One Left) as LC. unfold Joins_Model.run_query in LC. rewrite Ho, Ex in LC.
    injection LC as E. rewrite E in G. apply G. exact SG.
Qed.

(** *** INNER JOIN *)
(** C239: every join is an INNER JOIN tied to the first table. *)
Theorem inner_grouped : forall fuel aliased g l, one_table p (g_from g) -> qjoins (g_from g) <> [] ->
  (forall j a, In j (qjoins (g_from g)) -> In a (jon j) -> strict_atom a) ->
  (forall j, In j (qjoins (g_from g)) -> jkind j = KInner /\ jside j = SNone /\ linked p j = true) ->
  (forall j, In j (qjoins (g_from g)) -> read_by (g_rest g) (jtab j)) -> (forall a, In a (qwhere (g_from g)) -> upright a) ->
  grouped_over p g -> (forall m alias e, In (alias, e) (st_items (g_rest g)) -> ~ mentions (state_name m) e) ->
  summable_groups tt fn equal_keys (g_rest g) (joined cmpv p d (g_from g)) ->
  run fuel aliased g = Some (Ok l) -> grouped_result tt fn str_of leK equal_keys (g_rest g) (joined cmpv p d (g_from g)) l.
Proof.
  intros fuel aliased g l One Ne Strict Inner Sel Up GO FR SG H. pose proof One as (Hf & Hsc & Hpl). set (q := g_from g) in *.
  assert (Ho : optimize fuel q = Some (inner_rewrite q)).
  { unfold optimize. rewrite (single_from q p Hf). rewrite no_right by (intros j Hj E; destruct (Inner j Hj) as (_ & E' & _); congruence).
    destruct (qjoins q) as [|j js]; [congruence|]. cbn [existsb]. destruct (Inner j (or_introl eq_refl)) as (-> & _). reflexivity. }
  unfold run_joingrp in H. fold q in H. rewrite Ho in H. injection H as H.
  destruct (inner_fields p (qjoins q)) as [|c cs] eqn:Ef.
  { exfalso. assert (E : inner_rewrite q = q) by (unfold inner_rewrite; rewrite Hf, Ef; reflexivity). rewrite E in H. unfold run_group_compiled in H. rewrite Hf in H.
    destruct (qjoins q) as [|j js]; [congruence|]. cbn [run_joins] in H. unfold join_type_ok in H.
    destruct (Inner j (or_introl eq_refl)) as (Ek & _). rewrite Ek in H. cbn [andb] in H. discriminate. }
  assert (E : inner_rewrite q = Query [p] (map as_left (qjoins q)) (qwhere q ++ map not_null (c :: cs))) by (unfold inner_rewrite; rewrite Hf, Ef; reflexivity).
  rewrite E in H.
  destruct (grouped_rows aliased g (Query [p] (map as_left (qjoins q)) (qwhere q ++ map not_null (c :: cs))) l GO FR eq_refl) as (es & Ex & G); try assumption; cbn [qjoins qwhere].
  - intros j I. apply in_map_iff in I. destruct I as (j0 & <- & I). exact (scoped_neq _ [p] p (or_introl eq_refl) Hsc j0 I).
  - intros j I. apply in_map_iff in I. destruct I as (j0 & <- & I). exact (Sel j0 I).
  - intros a I. apply in_app_or in I. destruct I as [I|I]; [exact (Up a I)|]. apply in_map_iff in I. destruct I as (x & <- & _). exact Logic.I.
  - intros x [(a & I & X)|(j & a & I & Ia & X)]; cbn [qjoins qwhere] in I; fold q.
    + apply in_app_or in I. destruct I as [I|I]; [left; exists a; auto|]. apply in_map_iff in I. destruct I as (y & <- & I).
      destruct X as [<-|[]]. right. rewrite <- Ef in I. unfold inner_fields in I. apply filter_In in I. destruct I as [I _].
      apply in_flat_map in I. destruct I as (j & Ij & I). unfold join_fields in I. destruct (tab_mem _ _); [|destruct I].
      apply in_flat_map in I. destruct I as (a & Ia & I). apply filter_In in Ia. exists j, a. split; [exact Ij|]. split; [exact (proj1 Ia)|exact I].
    + apply in_map_iff in I. destruct I as (j0 & <- & I). right. exists j0, a. auto.
  - pose proof (inner_joins_correct cmpv d fuel p q NR SY One Strict Ne Inner) as IC. unfold Joins_Model.run_query in IC. rewrite Ho, E, Ex in IC.
    injection IC as E'. rewrite E' in G. apply G. exact SG.
Qed.

(** *** FROM a, b, ... *)
(** C239: every further table is tied by WHERE to a constant or to tables before it. *)
Theorem comma_grouped : forall fuel aliased g ts l, qfrom (g_from g) = p :: ts -> qjoins (g_from g) = [] -> ts <> [] ->
  tied (qwhere (g_from g)) [p] ts ->
  (forall a, In a (qwhere (g_from g)) -> forall c, In c (acols a) -> ctab c <> None) ->
  (forall o l r cs f, In (ACmp o l r) (qwhere (g_from g)) -> l = OExpr cs f \/ r = OExpr cs f -> forall c, In c cs -> ctab c = Some p) ->
  (forall tb, In tb ts -> read_by (g_rest g) tb) -> (forall a, In a (qwhere (g_from g)) -> upright a) ->
  grouped_over p g -> (forall m alias e, In (alias, e) (st_items (g_rest g)) -> ~ mentions (state_name m) e) ->
  summable_groups tt fn equal_keys (g_rest g) (joined cmpv p d (g_from g)) ->
  run fuel aliased g = Some (Ok l) -> grouped_result tt fn str_of leK equal_keys (g_rest g) (joined cmpv p d (g_from g)) l.
Proof.
  intros fuel aliased g ts l Hf Hj Ne Ti Qu Ex0 Sel Up GO FR SG H.
  destruct (g_from g) as [fr js w] eqn:Eq. cbn [qfrom qjoins qwhere] in *. subst fr js.
  set (q := Query [p] (multi_joins [p] w ts) w).
  assert (Tabs : forall can, map jtab (multi_joins can w ts) = ts).
  { clear. induction ts as [|tb ts IH]; intros can; [reflexivity|]. cbn [multi_joins map jtab]. f_equal. apply IH. }
  assert (Ho : optimize fuel (Query (p :: ts) [] w) = Some q).
  { unfold optimize. assert (multi_select (Query (p :: ts) [] w) = q) as -> by (destruct ts; [congruence|reflexivity]).
    assert (Hall : forall j, In j (qjoins q) -> jside j = SLeft /\ jkind j = KNone).
    { cbn [q qjoins]. generalize [p]. clear. induction ts as [|tb ts IH]; intros can j Hj; [destruct Hj|].
      cbn [multi_joins] in Hj. destruct Hj as [<-|Hj]; [now split|]. exact (IH _ j Hj). }
    rewrite no_right by (intros j Hj E; destruct (Hall j Hj); congruence).
    rewrite no_inner by (intros j Hj E; destruct (Hall j Hj); congruence). now destruct (qjoins q). }
  unfold run_joingrp in H. rewrite Eq, Ho in H. injection H as H.
  assert (Np : ~ In p ts).
  { assert (G : forall ts can, In p can -> tied w can ts -> ~ In p ts).
    { clear. induction ts as [|tb ts IH]; intros can I T J0; [destruct J0|]. cbn [tied] in T. destruct T as (T1 & _ & T3). destruct J0 as [->|J]; [contradiction|].
      apply (IH (can ++ [tb])); [apply in_or_app; left; exact I|exact T3|exact J]. }
    apply (G ts [p]); [left; reflexivity|exact Ti]. }
  destruct (grouped_rows aliased g q l GO FR eq_refl) as (es & Ex & G); try assumption; cbn [q qjoins qwhere].
  - intros j I E. apply Np. rewrite <- (Tabs [p]). rewrite <- E at 1. apply in_map. exact I.
  - intros j I. apply Sel. rewrite <- (Tabs [p]). apply in_map. exact I.
  - rewrite Eq. intros c [X|(j & a & I & Ia & X)]; [left; exact X|]. left. cbn [qwhere]. exists a. split; [|exact X].
    cbn [q qjoins] in I. revert I. generalize [p]. clear - Ia. induction ts as [|tb ts IH]; intros can I; [destruct I|]. cbn [multi_joins] in I. destruct I as [<-|I]; [|exact (IH _ I)].
    cbn [jon] in Ia. apply in_app_or in Ia. destruct Ia as [Ia|Ia]; apply filter_In in Ia; exact (proj1 Ia).
  - assert (CC : es = sql_query cmpv p d (Query (p :: ts) [] w)).
    { apply (comma_joins_correct cmpv d fuel p ts w es NR SY Ne Ti Qu Ex0). unfold Joins_Model.run_query. rewrite Ho, Ex. reflexivity. }
    rewrite CC in G. apply G. exact SG.
Qed.
End Props.
Print Assumptions left_grouped.
Print Assumptions inner_grouped.
Print Assumptions comma_grouped.

(** C249, C250: SELECT DISTINCT and GROUP BY without aggregates over joined tables. *)
From Coq Require Import SpecFloat Permutation Sorting.Sorted.
From Verif Require Import Base PyVal Utils_Model Calc_Model Calc_Proofs Expr_Syntax Expr_Model Expr_Spec Expr_Proofs Expr_Props
  Having_Model Having_Spec Having_Proofs Having_Props Agg_Spec Reduce_Spec Group_Syntax Group_Model Group_Spec Group_Proofs Group_Props
  Inner_Syntax Inner_Model Inner_Spec Inner_Proofs Inner_Props Whole_Syntax Cast_Syntax Whole_Model Whole_Spec Whole_Proofs
  Whole_Props Whole_Cases Collapse_Model Collapse_Spec Collapse_Props Select_Model Select_Spec Select_Proofs Select_Props
  Joins_Syntax Joins_Spec Joins_Model Joins_Proofs Joins_Rewrites Joins_Accept Joins_Props
  Joinsel_Syntax Joinsel_Spec Joinsel_Model Joinsel_Proofs Joinsel_Props Joinsel_Cases Joingrp_Syntax Joingrp_Spec Joingrp_Model Joingrp_Proofs Joingrp_Props Joingrp_Cases Joingrp_Accept Joingrp_Comma
  Joincol_Model Joincol_Spec Joincol_Proofs.
Open Scope Z_scope.

(** The tables [ts] are joined to [p]: by LEFT JOINs, by INNER JOINs, or FROM p, ts WHERE ... *)
Inductive joined_from (p : text) : list text -> Joins_Syntax.query -> Prop :=
| F_left : forall q, one_table p q -> (forall j, In j (qjoins q) -> jside j = SLeft /\ jkind j = KNone) -> joined_from p (map jtab (qjoins q)) q
| F_inner : forall q, one_table p q -> qjoins q <> [] -> (forall j a, In j (qjoins q) -> In a (jon j) -> strict_atom a) ->
    (forall j, In j (qjoins q) -> jkind j = KInner /\ jside j = SNone /\ linked p j = true) -> joined_from p (map jtab (qjoins q)) q
| F_comma : forall ts q, comma_joins p ts q -> joined_from p ts q.

Section Props.
Variable cmpv : cmp -> val -> val -> bool.
Variable frepr : spec_float -> text.
Variable ident : val -> val -> bool.
Variable ext : text -> option (list val -> val).
Variable lib : text -> list val -> val.
Variable tt : text -> bool.
Variable primary : option text.
Variable pick pick1 : list Group_Model.row -> Group_Model.row.
Variable nested : text -> Group_Model.row -> val.
Variable state_name : path -> text.
Variable other : expr -> res hcol.
Variable rematch : text -> val -> bool.
Variable leK : val -> val -> bool.
Variable d : db.
Variable p : text.
Hypothesis NR : null_rejecting cmpv.
Hypothesis SY : eq_symmetric cmpv.
Hypothesis NN : ext (t "neg") = None.
Hypothesis TK : total_preorder leK.
Hypothesis EQ : forall a b, pyeq a b = true -> leK a b = true /\ leK b a = true.
Hypothesis HP : forall rs, rs <> [] -> In (pick rs) rs.
Hypothesis HP1 : forall rs, rs <> [] -> In (pick1 rs) rs.
Notation fn := (sql_fn frepr ident ext lib).
Notation value := (sem tt fn).
Notation run_q := (run_collapse_compiled cmpv frepr ident ext lib primary pick pick1 nested state_name other rematch leK d).
Notation run := (run_joincol cmpv frepr ident ext lib primary pick pick1 nested state_name other rematch leK d).
Notation csel := (collapse_select cmpv frepr ident ext lib rematch).

(** What the rewrites make of FROM and the joins. *)
Lemma from_shape : forall fuel ts q, joined_from p ts q ->
  exists q', optimize fuel q = Some q' /\ qfrom q' = [p] /\ map jtab (qjoins q') = ts /\ (forall j, In j (qjoins q') -> jtab j <> p) /\
    ((forall a, In a (qwhere q) -> upright a) -> forall a, In a (qwhere q') -> upright a) /\
    (forall c, condition_column q' c -> condition_column q c) /\
    (forall a c tb, In a (qwhere q') -> In c (acols a) -> ctab c = Some tb -> (exists a', In a' (qwhere q) /\ In c (acols a')) \/ tb = p \/ In tb ts) /\
    execute cmpv d q' = Ok (sql_query cmpv p d q) /\ exists r, run_joins cmpv d p (qjoins q') [] = Ok r.
Proof.
  intros fuel ts q F. destruct F as [q One Left|q One Ne Strict Inner|ts q (Hf & Hj & Ne & Ti & To & Qu & Ex0)].
  - pose proof One as (Hf & Hsc & Hpl). exists q.
    assert (Ho : optimize fuel q = Some q).
    { unfold optimize. rewrite (single_from _ _ Hf). rewrite no_right by (intros j Hj E; destruct (Left j Hj); congruence).
      rewrite no_inner by (intros j Hj E; destruct (Left j Hj); congruence). now destruct (qjoins q). }
    split; [exact Ho|]. split; [exact Hf|]. split; [reflexivity|]. split; [apply (scoped_neq _ [p]); [now left|exact Hsc]|]. split; [auto|]. split; [auto|].
    split; [intros a c tb Ia Ic _; left; exists a; auto|]. split.
    + pose proof (left_joins_correct cmpv d fuel p q NR SY One Left) as LC. unfold Joins_Model.run_query in LC. rewrite Ho in LC. injection LC as LC. exact LC.
    + apply run_joins_accepts.
      * intros j Hj. unfold join_type_ok. destruct (Left j Hj) as [-> ->]. reflexivity.
      * exact (scoped_qualified _ _ Hsc).
      * intros j Hj. exact (proj1 (Hpl j Hj)).
  - pose proof One as (Hf & Hsc & Hpl). destruct (inner_shape cmpv d p NR SY fuel q One Ne Strict Inner) as (nn & Ho & Nn & Ex' & RJ).
    exists (Query [p] (map as_left (qjoins q)) (qwhere q ++ nn)). cbn [qfrom qjoins qwhere]. split; [exact Ho|]. split; [reflexivity|]. split; [apply as_left_tabs|]. split.
    { intros j I. apply in_map_iff in I. destruct I as (j0 & <- & I). exact (scoped_neq _ [p] p (or_introl eq_refl) Hsc j0 I). }
    split; [intros Up a I; apply in_app_or in I; destruct I as [I|I]; [exact (Up a I)|exact (proj1 (Nn a I))]|]. split.
    { intros c [(a & I & X)|(j & a & I & Ia & X)]; cbn [qjoins qwhere] in I.
      - apply in_app_or in I. destruct I as [I|I]; [left; exists a; auto|exact (proj1 (proj2 (Nn a I) c X))].
      - apply in_map_iff in I. destruct I as (j0 & <- & I). right. exists j0, a. auto. }
    split; [|split; [exact Ex'|exact (RJ [])]].
    intros a c tb Ia Ic Ec. apply in_app_or in Ia. destruct Ia as [Ia|Ia]; [left; exists a; auto|right].
    destruct (proj2 (Nn a Ia) c Ic) as (_ & tb' & E' & J). assert (tb' = tb) by congruence. subst tb'. exact J.
  - destruct q as [fr js w]. cbn [qfrom qjoins qwhere] in *. subst fr js. exists (Query [p] (multi_joins [p] w ts) w). cbn [qfrom qjoins qwhere].
    pose proof (comma_shape p w fuel ts Ne) as Ho. split; [exact Ho|]. split; [reflexivity|]. split; [apply multi_tabs|].
    pose proof (tied_neq p w ts [p] (or_introl eq_refl) Ti) as Np. split.
    { intros j I E. apply Np. rewrite <- (multi_tabs w ts [p]). rewrite <- E at 1. apply in_map. exact I. }
    split; [auto|]. split.
    { intros c [X|(j & a & I & Ia & X)]; [left; exact X|]. left. cbn [qwhere qjoins] in *. exists a. split; [exact (multi_on w ts [p] j a I Ia)|exact X]. }
    split; [intros a c tb Ia Ic _; left; exists a; auto|]. split; [|exact (comma_joins_run p w Ex0 cmpv d ts [] To Qu)].
    destruct (comma_joins_run p w Ex0 cmpv d ts (map (fun r => [(p, Some r)]) (d p)) To Qu) as (r & Rr).
    assert (Ex : exists es, execute cmpv d (Query [p] (multi_joins [p] w ts) w) = Ok es) by (unfold execute; cbn [qfrom qjoins qwhere]; rewrite Rr; eauto).
    destruct Ex as (es & Ex). rewrite Ex. f_equal. apply (comma_joins_correct cmpv d fuel p ts w es NR SY Ne Ti Qu Ex0). unfold Joins_Model.run_query. rewrite Ho, Ex. reflexivity.
Qed.

Lemma collapsed_runs : forall distinct fuel aliased g ts ck keys_of kind_,
  joined_from p ts (g_from g) -> (forall tb, In tb ts -> read_by (g_rest g) tb) -> reads_only p ts g -> (forall a, In a (qwhere (g_from g)) -> upright a) ->
  collapsing_over g ->
  (forall cfg q hav, g_agg cfg = [] -> map fst (g_schema cfg) = map fst (st_items (g_rest g)) -> g_schema cfg <> [] ->
     select_kind _ _ (csel distinct aliased p q (g_rest g) cfg hav) = Ok kind_) ->
  (kind_ = KGrouped /\ (forall cfg, keys_of cfg = compile_keys frepr ident ext (g_schema cfg) (st_group (g_rest g))) \/ kind_ = KDistinct /\ (forall cfg, keys_of cfg = distinct_keys cfg)) ->
  (forall cfg r, Forall2 (fun nc ne => fst nc = fst ne /\ exists q, snd nc = GPlain q /\ forall r, ev frepr ident ext lib r q = value r (snd ne)) (g_schema cfg) (st_items (g_rest g)) ->
     map (key_value frepr ident ext lib nested r) (keys_of cfg) = ck r) ->
  Forall (fun nd => exists e, In (fst nd, e) (st_items (g_rest g)) /\
     ((exists m, e = ECol m /\ is_first p (named m) (fst nd) /\ forall r r', equal_keys (ck r) (ck r') = true -> pyeq (r m) (r' m) = true) \/ ~ used_first p g (fst nd))) (st_order (g_rest g)) ->
  proper_keys tt fn equal_keys ck (g_rest g) (joined cmpv p d (g_from g)) ->
  exists out, run fuel distinct aliased g = Some (Ok out) /\ collapsed_result tt fn leK equal_keys ck (g_rest g) (joined cmpv p d (g_from g)) out.
Proof.
  intros distinct fuel aliased g ts ck keys_of kind_ Fr Sel (K1 & K2) Up (W0 & NI & ND & FI & PH & PL & LH & NoDot) KK KC CK O PK.
  destruct (from_shape fuel ts (g_from g) Fr) as (q & Ho & Hf & Tabs & Hp & Up' & Cond & WT & Ex' & x0 & E0). specialize (Up' Up).
  set (st := g_rest g) in *. rewrite Forall_forall in O.
  remember (run_q distinct aliased st q) as rs eqn:H. symmetry in H. unfold run_joincol. rewrite Ho. fold st. rewrite H.
  unfold run_collapse_compiled in H. rewrite Hf, E0 in H. cbn [bind] in H. cbv zeta in H. fold (reads cmpv p st q) in H.
  assert (Kn : known_tables p (qjoins q) (reads cmpv p st q) = true).
  { apply known_ok. rewrite Tabs. intros tb I. apply tables_in in I. destruct I as (c & I & E).
    assert (J : tb = p \/ In tb ts); [|destruct J as [->|J]; [left; reflexivity|right; exact J]].
    apply in_app_or in I. destruct I as [I|I].
    - apply in_map_iff in I. destruct I as (m & <- & I). apply K1. exists m. split; [exact E|]. unfold items_read in I. apply in_app_or in I. destruct I as [I|I]; apply in_flat_map in I.
      + destruct I as ([n e] & Ie & I). left. exists n, e. split; [exact Ie|]. apply columns_mentions. exact I.
      + destruct I as (k & Ik & I). right. exists k. split; [exact Ik|]. destruct k as [b m'|e]; cbn [key_reads column_of_key] in *; [destruct I as [->|[]]; reflexivity|apply columns_mentions; exact I].
    - apply in_flat_map in I. destruct I as (a & Ia & I). apply filter_In in Ia. destruct Ia as [Ia _]. destruct (WT a c tb Ia I E) as [(a' & Ia' & Ic)|J]; [exact (K2 a' c tb Ia' Ic E)|exact J]. }
  rewrite Kn in H. clear Kn. set (need := reads cmpv p st q) in H.
  destruct (free_schema frepr ident ext lib tt NN state_name st ND FI) as (cfg & C & Names & NA & Row). rewrite C in H. cbn [bind] in H.
  destruct (having_whole frepr ident ext lib tt NN other rematch st (map fst (g_schema cfg)) PH) as (hav & Hh & HV); [rewrite Names; auto|].
  rewrite Hh in H. cbn [bind] in H.
  set (sel := csel distinct aliased p q st cfg hav) in *.
  destruct (joined_source cmpv leK d p SY TK q x0 Hf Hp Up' E0) as (good & Ex & Src). rewrite Ex' in Ex. apply Calc_Proofs.Ok_inj in Ex.
  assert (NS : g_schema cfg <> []) by (intros E; rewrite E in Names; destruct (st_items st); [congruence|discriminate Names]).
  assert (K : select_kind _ _ sel = Ok kind_) by (apply KK; assumption). clear KK.
  assert (HK : forall l, keep (s_having env output sel) l = filter (fun o => holds tt fn (st_having st) (column o)) l).
  { intros m. unfold sel, collapse_select. cbn [s_having]. apply keep_as. intros x. etransitivity; [|exact (HV x)]. destruct hav; reflexivity. }
  destruct (order_taken sel (map fst (g_schema cfg)) (st_order st) eq_refl eq_refl) as ([o ps] & OC).
  { intros n b I. destruct (O _ I) as (e & J & _). rewrite Names. apply (in_map fst) in J. exact J. }
  assert (LH' : s_limit _ _ sel = None \/ s_having _ _ sel <> None).
  { destruct LH as [LH|LH]; [left; exact LH|right]. unfold sel, collapse_select. cbn [s_having]. destruct (st_having st) as [e|]; [|congruence].
    destruct (having frepr ident ext (Some (map fst (g_schema cfg))) other e); cbn [bind] in Hh; [|discriminate Hh]. injection Hh as <-. discriminate. }
  pose proof (collapse_uncut env sel ps PL LH') as Uncut.
  destruct (compile_limit env output sel ps) as [pl lim] eqn:CL.
  assert (L0 : lim = 0) by (transitivity (snd (pl, lim)); [reflexivity|]; rewrite <- CL; exact Uncut). subst lim.
  assert (Ek : compile_select env output sel = Ok (mktask (s_predicate _ _ sel) kind_ (s_having _ _ sel) o 0 pl)).
  { unfold compile_select. rewrite OC. cbn [bind fst snd]. rewrite CL, K. reflexivity. }
  rewrite Ek in H. cbn [bind t_limit t_orders t_predicate t_kind t_pipelines t_having] in H. change (take 0 ?x) with x in H.
  destruct (Src need o) as (es & Rj & Es).
  { intros j I. assert (J : In (jtab j) ts) by (rewrite <- Tabs; apply in_map; exact I). destruct (Sel _ J) as (m & Em & M). unfold need, reads. eapply tables_have; [|exact Em]. apply in_or_app. left. apply in_map. unfold items_read. apply in_or_app.
    destruct M as [(n & e & Ie & M)|(kk & Ig & M)]; [left|right]; apply in_flat_map.
    - exists (n, e). split; [exact Ie|]. apply columns_mentions. exact M.
    - exists kk. split; [exact Ig|]. destruct kk as [b m'|e]; cbn [column_of_key key_reads] in *; [left; symmetry; exact M|apply columns_mentions; exact M]. }
  rewrite Rj in H. cbn [bind] in H. change (s_predicate env output sel) with (predicate cmpv p (qwhere q)) in H. rewrite Es in H.
  assert (Pushed : forall n dd, In (n, dd) (st_order st) -> pushed _ _ sel [] n = true ->
     exists m, In (n, ECol m) (st_items st) /\ (forall r r', equal_keys (ck r) (ck r') = true -> pyeq (r m) (r' m) = true) /\ forall x, first_field p n x = view p x m).
  { intros n dd I P. unfold pushed in P. unfold sel, collapse_select, aggregate_part in P. cbn [s_schema s_columns s_table s_aggregate] in P. rewrite Names, NA in P.
    destruct (O _ I) as (e & J & X). cbn [fst] in J, X. destruct X as [(m & -> & F & G)|U].
    - exists m. split; [exact J|]. split; [exact G|]. intros x. unfold first_field, view. destruct F as [F1 F2]. unfold cval. rewrite F1. cbn [ctab cname].
      destruct F2 as [->| ->]; reflexivity.
    - exfalso. assert (Ms : memb n (map fst (st_items st)) = true) by (apply memb_In; apply (in_map fst) in J; exact J).
      assert (P' : memb n (primary_names cmpv p q st) = true).
      { clear - P Ms. destruct (st_having st); cbn [map memb existsb negb andb] in P; rewrite Ms in P; cbn [negb] in P; rewrite ?andb_false_r, ?orb_false_r in P; destruct (has_alias env output _) in P; try discriminate; exact P. }
      apply memb_In in P'. unfold primary_names in P'. apply registered_first in P'. destruct P' as (c & Ic & F). apply U.
      rewrite !in_app_iff in Ic. destruct Ic as [Ic|[Ic|Ic]].
      + apply in_map_iff in Ic. destruct Ic as (m & <- & Ic). left. exists m. split; [|exact F].
        rewrite !in_app_iff in Ic. destruct Ic as [Ic|[Ic|Ic]].
        * left. apply in_flat_map in Ic as ([m' e'] & I' & J'). exists m', e'. split; [exact I'|]. apply columns_mentions. exact J'.
        * right. right. right. apply in_flat_map in Ic as ([b m'|e'] & I' & J'); [destruct J'|]. exists e'. split; [exact I'|]. exact (proj2 (operand_columns_in m e' J')).
        * right. right. left. fold st. destruct (st_having st) as [e'|] eqn:E; [|destruct Ic]. destruct (PH e' E) as [Cc _].
          destruct (having_columns_in m e' Cc Ic) as (x & A1 & B1 & M1). exists e', x. auto.
      + right. exists c. split; [|exact F]. apply Cond. left. apply in_flat_map in Ic as (a & Ia & Ic). apply filter_In in Ia. exists a. split; [exact (proj1 Ia)|exact Ic].
      + right. exists c. split; [|exact F]. apply Cond. right. apply in_flat_map in Ic as (j & Ij & Ic). apply in_flat_map in Ic as (a & Ia & Ic). exists j, a. auto. }
  assert (CK' : forall r, map (key_value frepr ident ext lib nested r) (keys_of cfg) = ck r) by (intros r; apply CK; exact Row).
  unfold joined in PK |- *. rewrite Ex in PK |- *.
  pose proof (collapsed_core frepr ident ext lib tt primary pick pick1 nested leK TK EQ HP HP1 env (view p) (first_field p) st cfg sel good o ps (keys_of cfg) ck ND Row W0 CK' HK eq_refl Pushed OC PK) as GR.
  set (grows := collapsed_by frepr ident ext lib primary pick pick1 nested cfg (keys_of cfg) (map (view p) (sort (le_by val leK (first_field p) o) good))) in GR.
  assert (H' : Ok (fold_left (apply_pipeline output val leK Whole_Model.field) pl (keep (s_having env output sel) grows)) = rs).
  { rewrite <- H. change (map (view p)) with (map (read p)) in grows. destruct KC as [[-> KC]|[-> KC]]; cbn [bind]; unfold grows; rewrite KC; reflexivity. }
  clear H. rewrite <- H'. eexists. split; [reflexivity|].
  (* the page *)
  set (agg := fun _ : list env => grows).
  pose proof (collapse_limit_any leK env (first_field p) (fun _ => []) agg agg agg sel good PL LH') as Pg.
  assert (R0 : forall src, compute env output (fun _ => []) agg agg agg kind_ src = grows) by (intros src; destruct KC as [[-> _]|[-> _]]; reflexivity).
  assert (R1 : run_select env output val leK (first_field p) Whole_Model.field (fun _ => []) agg agg agg sel good = Ok (fold_left (apply_pipeline output val leK Whole_Model.field) pl (keep (s_having env output sel) grows))).
  { unfold run_select. rewrite Ek. cbn [bind]. unfold run_task. cbn [t_kind t_having t_pipelines]. rewrite R0. reflexivity. }
  assert (R2 : run_select env output val leK (first_field p) Whole_Model.field (fun _ => []) agg agg agg (with_limit sel None None) good =
     Ok (fold_left (apply_pipeline output val leK Whole_Model.field) ps (keep (s_having _ _ sel) grows))).
  { unfold run_select, compile_select. rewrite order_with_limit, OC. cbn [bind snd fst]. unfold compile_limit. cbn [s_limit s_offset with_limit]. change (negb (0 =? 0) || (0 <? 0))%bool with false. cbv iota zeta.
    change (select_kind env output (with_limit sel None None)) with (select_kind env output sel). rewrite K. cbn [bind]. unfold run_task. cbn [t_pipelines t_having t_kind]. rewrite R0. reflexivity. }
  assert (Pg' : fold_left (apply_pipeline output val leK Whole_Model.field) pl (keep (s_having env output sel) grows) =
     Whole_Spec.paged (st_limit st) (st_offset st) (fold_left (apply_pipeline output val leK Whole_Model.field) ps (keep (s_having _ _ sel) grows))).
  { apply Calc_Proofs.Ok_inj. etransitivity; [symmetry; exact R1|]. etransitivity; [exact Pg|].
    exact (f_equal (fun b => bind b (fun l => Ok (Whole_Spec.paged (st_limit st) (st_offset st) l))) R2). }
  rewrite Pg'. exact GR.
Qed.
End Props.

(** C249.  Every GROUP BY without aggregates of the class [bare_group_over], over tables joined in one of the ways of [joined_from], is accepted, and whatever the tables,
    provided the keys have no NaN, its result is: the joined rows that WHERE keeps, in some order; one row for each distinct value of the GROUP BY items on them,
    each item having its value on a joined row of the group; of these the rows on which HAVING is TRUE, sorted by ORDER BY; and of these the page given by LIMIT and OFFSET. *)
Theorem joined_bare_group : forall cmpv frepr ident ext lib tt primary pick pick1 nested state_name other rematch leK d p,
  null_rejecting cmpv -> eq_symmetric cmpv -> ext (t "neg") = None -> total_preorder leK -> (forall a b, pyeq a b = true -> leK a b = true /\ leK b a = true) ->
  (forall rs, rs <> [] -> In (pick rs) rs) -> (forall rs, rs <> [] -> In (pick1 rs) rs) ->
  let fn := sql_fn frepr ident ext lib in
  forall fuel aliased g ts, joined_from p ts (g_from g) -> (forall tb, In tb ts -> read_by (g_rest g) tb) -> reads_only p ts g -> (forall a, In a (qwhere (g_from g)) -> upright a) ->
  bare_group_over p g -> proper_keys tt fn equal_keys (bare_key tt fn (g_rest g)) (g_rest g) (joined cmpv p d (g_from g)) ->
  exists out, run_joincol cmpv frepr ident ext lib primary pick pick1 nested state_name other rematch leK d fuel false aliased g = Some (Ok out) /\
              collapsed_result tt fn leK equal_keys (bare_key tt fn (g_rest g)) (g_rest g) (joined cmpv p d (g_from g)) out.
Proof.
  intros cmpv fr id ext lib tt pr pick pick1 nested nm other rm leK d p NR SY NN TK EQ HP HP1 fn fuel aliased g ts Fr Sel RO Up (B & NG & GK & O) PK.
  apply (collapsed_runs cmpv fr id ext lib tt pr pick pick1 nested nm other rm leK d p NR SY NN TK EQ HP HP1 false fuel aliased g ts (bare_key tt fn (g_rest g))
    (fun cfg => compile_keys fr id ext (g_schema cfg) (st_group (g_rest g))) KGrouped Fr Sel RO Up B).
  - intros cfg q hav NA Names NS. unfold select_kind, has_aggregates, collapse_select, aggregate_part. cbn [s_aggregate s_group s_distinct s_schema]. rewrite NA.
    destruct (g_schema cfg) as [|c l]; [congruence|]. destruct (st_group (g_rest g)); [congruence|]. destruct (st_having (g_rest g)); reflexivity.
  - left. split; reflexivity.
  - intros cfg r F. apply bare_keys; assumption.
  - pose proof B as (_ & _ & ND & _ & _ & _ & _ & NoDot). eapply Forall_impl; [|exact O]. cbn beta. intros [n b0] (e & I & X). cbn [fst] in *. exists e. split; [exact I|].
    destruct X as [(m & b & -> & F & J)|U]; [left|right; exact U]. exists m. split; [reflexivity|]. split; [exact F|]. intros r r' E. unfold bare_key in E.
    pose proof (equal_keys_at _ _ _ _ _ J E) as V. destruct b; cbn [name_value] in V; [exact V|].
    destruct (assoc m (st_items (g_rest g))) as [e|] eqn:A; [|exact V].
    assert (Im : In m (map fst (st_items (g_rest g)))) by (apply Group_Proofs.assoc_pair in A; apply (in_map fst) in A; exact A).
    assert (Em : m = n). { pose proof (NoDot m Im) as L. destruct F as [F1 _]. unfold named in F1. rewrite L in F1. exact F1. }
    subst m. rewrite (assoc_nodup _ n _ (ECol n) ND I) in A. injection A as <-. exact V.
  - exact PK.
Qed.
Print Assumptions joined_bare_group.

(** C250.  Every SELECT DISTINCT of the class [distinct_over], over tables joined in one of the ways of [joined_from], is accepted, and whatever the tables, provided the values have no
    NaN, its result is: the joined rows that WHERE keeps, in some order; one row for each distinct combination of the values of all items; of these the rows on which HAVING is
    TRUE, sorted by ORDER BY; and of these the page given by LIMIT and OFFSET.  No two rows of the result are equal. *)
Theorem joined_distinct : forall cmpv frepr ident ext lib tt primary pick pick1 nested state_name other rematch leK d p,
  null_rejecting cmpv -> eq_symmetric cmpv -> ext (t "neg") = None -> total_preorder leK -> (forall a b, pyeq a b = true -> leK a b = true /\ leK b a = true) ->
  (forall rs, rs <> [] -> In (pick rs) rs) -> (forall rs, rs <> [] -> In (pick1 rs) rs) ->
  let fn := sql_fn frepr ident ext lib in
  forall fuel aliased g ts, joined_from p ts (g_from g) -> (forall tb, In tb ts -> read_by (g_rest g) tb) -> reads_only p ts g -> (forall a, In a (qwhere (g_from g)) -> upright a) ->
  distinct_over p g -> proper_keys tt fn equal_keys (item_values tt fn (g_rest g)) (g_rest g) (joined cmpv p d (g_from g)) ->
  exists out, run_joincol cmpv frepr ident ext lib primary pick pick1 nested state_name other rematch leK d fuel true aliased g = Some (Ok out) /\
              collapsed_result tt fn leK equal_keys (item_values tt fn (g_rest g)) (g_rest g) (joined cmpv p d (g_from g)) out /\
              ForallOrdPairs (fun x y => equal_keys (map snd x) (map snd y) = false) out.
Proof.
  intros cmpv fr id ext lib tt pr pick pick1 nested nm other rm leK d p NR SY NN TK EQ HP HP1 fn fuel aliased g ts Fr Sel RO Up (B & NG & O) PK.
  destruct (collapsed_runs cmpv fr id ext lib tt pr pick pick1 nested nm other rm leK d p NR SY NN TK EQ HP HP1 true fuel aliased g ts (item_values tt fn (g_rest g))
    distinct_keys KDistinct Fr Sel RO Up B) as (out & Ro & Re).
  - intros cfg q hav NA Names NS. unfold select_kind, has_aggregates, collapse_select, aggregate_part. cbn [s_aggregate s_group s_distinct s_schema]. rewrite NA, NG.
    destruct (g_schema cfg) as [|c l]; [congruence|]. destruct (st_having (g_rest g)); reflexivity.
  - right. split; reflexivity.
  - intros cfg r F. apply distinct_key_values. exact F.
  - eapply Forall_impl; [|exact O]. cbn beta. intros [n b0] (e & I & X). cbn [fst] in *. exists e. split; [exact I|]. destruct X as [(m & -> & F)|U]; [left|right; exact U].
    exists m. split; [reflexivity|]. split; [exact F|]. intros r r' E. exact (equal_keys_at _ (fun ne => sem tt fn r (snd ne)) (fun ne => sem tt fn r' (snd ne)) _ _ I E).
  - exact PK.
  - exists out. split; [exact Ro|]. split; [exact Re|]. exact (distinct_apart _ _ _ _ _ _ Re).
Qed.
Print Assumptions joined_distinct.

(** C251.  The full claim: a SELECT DISTINCT, or a GROUP BY without aggregates, over joined tables with LIMIT n returns at most n rows.  Proved where a LIMIT comes with HAVING ([collapsing_over]); without
    HAVING the limit is taken from the rows of the first table before they are joined (Joincol_Cases.joined_distinct_limit_refuted). *)
Theorem joined_limit_partial : forall cmpv frepr ident ext lib tt primary pick pick1 nested state_name other rematch leK d p,
  null_rejecting cmpv -> eq_symmetric cmpv -> ext (t "neg") = None -> total_preorder leK -> (forall a b, pyeq a b = true -> leK a b = true /\ leK b a = true) ->
  (forall rs, rs <> [] -> In (pick rs) rs) -> (forall rs, rs <> [] -> In (pick1 rs) rs) ->
  let fn := sql_fn frepr ident ext lib in
  forall fuel aliased distinct g ts n out, joined_from p ts (g_from g) -> (forall tb, In tb ts -> read_by (g_rest g) tb) -> reads_only p ts g -> (forall a, In a (qwhere (g_from g)) -> upright a) ->
  (distinct = true /\ distinct_over p g /\ proper_keys tt fn equal_keys (item_values tt fn (g_rest g)) (g_rest g) (joined cmpv p d (g_from g)) \/
   distinct = false /\ bare_group_over p g /\ proper_keys tt fn equal_keys (bare_key tt fn (g_rest g)) (g_rest g) (joined cmpv p d (g_from g))) ->
  st_limit (g_rest g) = Some n ->
  run_joincol cmpv frepr ident ext lib primary pick pick1 nested state_name other rematch leK d fuel distinct aliased g = Some (Ok out) ->
  (Z.of_nat (length out) <= n).
Proof.
  intros cmpv fr id ext lib tt pr pick pick1 nested nm other rm leK d p NR SY NN TK EQ HP HP1 fn fuel aliased distinct g ts n out Fr Sel RO Up H L R.
  assert (X : 0 < n /\ exists ck, collapsed_result tt fn leK equal_keys ck (g_rest g) (joined cmpv p d (g_from g)) out).
  { destruct H as [(-> & B & K)|(-> & B & K)].
    - destruct (joined_distinct cmpv fr id ext lib tt pr pick pick1 nested nm other rm leK d p NR SY NN TK EQ HP HP1 fuel aliased g ts Fr Sel RO Up B K) as (o & Ro & Re & _).
      rewrite R in Ro. injection Ro as <-. split; [|eexists; exact Re]. destruct B as ((_ & _ & _ & _ & _ & PL & _) & _). exact (PL n L).
    - destruct (joined_bare_group cmpv fr id ext lib tt pr pick pick1 nested nm other rm leK d p NR SY NN TK EQ HP HP1 fuel aliased g ts Fr Sel RO Up B K) as (o & Ro & Re).
      rewrite R in Ro. injection Ro as <-. split; [|eexists; exact Re]. destruct B as ((_ & _ & _ & _ & _ & PL & _) & _). exact (PL n L). }
  destruct X as (Hn & ck & rows & grows & sorted & _ & _ & _ & _ & _ & ->). rewrite L. unfold Whole_Spec.paged. rewrite firstn_length. lia.
Qed.
Print Assumptions joined_limit_partial.

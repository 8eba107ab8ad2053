(** C224, C225: SELECT DISTINCT and GROUP BY without aggregates as whole statements. *)
From Coq Require Import SpecFloat Permutation Sorting.Sorted.
From Verif Require Import Base PyVal Utils_Model Calc_Model Expr_Syntax Expr_Model Expr_Spec Expr_Proofs Expr_Props Where_Model Where_Spec Where_Proofs Where_Props
  Having_Model Having_Spec Having_Proofs Having_Props Agg_Spec Reduce_Spec Group_Syntax Group_Model Group_Spec Group_Proofs Group_Props
  Inner_Syntax Inner_Model Inner_Spec Inner_Proofs Inner_Props Select_Model Select_Spec Select_Proofs Select_Props Whole_Syntax Cast_Syntax Cast_Where Cast_Spec Cast_Proofs Whole_Model Whole_Spec Whole_Proofs Whole_Props Collapse_Model Collapse_Spec.
Open Scope Z_scope.

Section Collapse.
Variable frepr : spec_float -> text.
Variable ident : val -> val -> bool.
Variable ext : text -> option (list val -> val).
Variable lib : text -> list val -> val.
Variable tt : text -> bool.
Hypothesis no_neg : ext (t "neg") = None.
Variable str_of : val -> text.
Variable primary : option text.
Variable pick pick1 : list row -> row.
Variable nested : text -> row -> val.
Variable raw : list (text * state) -> val.
Variable state_name : path -> text.
Variable other : expr -> res hcol.
Variable rematch : text -> val -> bool.
Variable leK : val -> val -> bool.
Hypothesis TK : total_preorder leK.
Hypothesis EQ : forall a b, pyeq a b = true -> leK a b = true /\ leK b a = true.
Hypothesis HP : forall rs, rs <> [] -> In (pick rs) rs.
Hypothesis HP1 : forall rs, rs <> [] -> In (pick1 rs) rs.
Let fn := sql_fn frepr ident ext lib.
Notation value := (sem tt fn).

(** ** The select list *)
Lemma free_items_group : forall l group cfg, Forall (fun ne => ~ uses_aggregate (snd ne)) l ->
  compile_items frepr ident ext group cfg (map (fun ne => (fst ne, select_item state_name (snd ne))) l) =
  compile_items frepr ident ext [] cfg (map (fun ne => (fst ne, select_item state_name (snd ne))) l).
Proof.
  induction l as [|[n e] l IH]; intros group cfg F; [reflexivity|]. inversion F as [|? ? U F']; subst. cbn [map fst snd compile_items] in *.
  assert (E : compile_item frepr ident ext group cfg n (select_item state_name e) = compile_item frepr ident ext [] cfg n (select_item state_name e)).
  { rewrite (free_item state_name e U). destruct (is_const e); [reflexivity|]. destruct e; reflexivity. }
  rewrite E. destruct (compile_item frepr ident ext [] cfg n (select_item state_name e)) as [c|]; [|reflexivity]. cbn [bind]. apply IH. exact F'.
Qed.
Lemma free_schema : forall st, NoDup (map fst (st_items st)) ->
  Forall (fun ne => exact (snd ne) /\ ~ uses_aggregate (snd ne) /\ forall v, snd ne <> ENeg (EConst v)) (st_items st) ->
  exists cfg, compile_written state_name frepr ident ext (mkwritten (st_items st) (st_group st)) = Ok cfg /\
    map fst (g_schema cfg) = map fst (st_items st) /\ g_agg cfg = [] /\
    Forall2 (fun nc ne => fst nc = fst ne /\ exists q, snd nc = GPlain q /\ forall r, ev frepr ident ext lib r q = value r (snd ne)) (g_schema cfg) (st_items st).
Proof.
  intros st ND F. pose proof F as F'. rewrite Forall_forall in F.
  set (l := map (fun ne => (fst ne, select_item state_name (snd ne))) (st_items st)).
  assert (PI : forall n i, In (n, i) l -> exists e, In (n, e) (st_items st) /\ i = select_item state_name e).
  { intros n i I. apply in_map_iff in I as ([m e] & E & I). injection E as <- <-. exists e. split; [exact I|reflexivity]. }
  pose proof (compile_items_ok frepr ident ext [] l [] []) as C. cbn [app] in C.
  assert (Names : map fst l = map fst (st_items st)) by (unfold l; rewrite map_map; reflexivity).
  assert (FA : Forall (fun ne : text * expr => ~ uses_aggregate (snd ne)) (st_items st)) by (eapply Forall_impl; [|exact F']; intros a (_ & U & _); exact U).
  eexists. split.
  - unfold compile_written, compile_query, query_of. cbn [q_group q_items w_group w_items]. rewrite (free_items_group _ _ _ FA). apply C.
    + rewrite Names. exact ND.
    + constructor.
    + apply Forall_forall. intros [n i] I. apply PI in I as (e & I & ->). destruct (F _ I) as (X & U & NC). cbn [snd] in *.
      rewrite (free_item state_name e U). destruct (is_const e); [exact Logic.I|]. destruct e; try exact X. exact Logic.I.
  - cbn [g_schema g_agg]. split; [|split].
    + rewrite schema_of_fst. exact Names.
    + destruct (aggs_of frepr ident ext [] l) as [|[n a] r] eqn:E; [reflexivity|]. exfalso.
      assert (I : In (n, a) (aggs_of frepr ident ext [] l)) by (rewrite E; left; reflexivity).
      apply in_flat_map in I as ([m i] & I & J). apply PI in I as (e & I & ->). destruct (F _ I) as (X & U & NC). cbn [fst snd] in *.
      rewrite (free_item state_name e U) in J. destruct (is_const e); [destruct J|]. destruct e; destruct J.
    + unfold l, schema_of. rewrite map_map. clear - F' no_neg. induction F' as [|[n e] items (X & U & NC) _ IH]; [constructor|]. cbn [map fst snd] in *. constructor; [|exact IH].
      split; [reflexivity|]. cbn [fst snd]. rewrite (free_item state_name e U). destruct (is_const e) eqn:C.
      * destruct (const_forms e C) as [[c ->]|[c E]]; [|destruct (NC c E)]. exists (QConst c). split; [reflexivity|]. reflexivity.
      * assert (G : exists q, GPlain (compile frepr ident ext e) = GPlain q /\ forall r, ev frepr ident ext lib r q = value r e)
          by (eexists; split; [reflexivity|intros r; exact (compiled_value frepr ident ext lib tt no_neg e X r)]).
        destruct e; try exact G.
Qed.

(** ** The keys *)
Lemma schema_assoc : forall n (sch : list (text * gcol)) items,
  Forall2 (fun nc ne => fst nc = fst ne /\ exists q, snd nc = GPlain q /\ forall r, ev frepr ident ext lib r q = value r (snd ne)) sch items ->
  match assoc n sch, assoc n items with
  | Some g, Some e => exists q, g = GPlain q /\ forall r, ev frepr ident ext lib r q = value r e
  | None, None => True
  | _, _ => False
  end.
Proof.
  intros n sch items F. induction F as [|[m g] [m' e] sch items [E H] F IH]; [exact Logic.I|]. cbn [fst snd] in *. subst m'. cbn [assoc].
  destruct (text_eqb n m); [exact H|exact IH].
Qed.
Lemma bare_keys : forall st sch r, st_group st <> [] ->
  Forall2 (fun nc ne => fst nc = fst ne /\ exists q, snd nc = GPlain q /\ forall r, ev frepr ident ext lib r q = value r (snd ne)) sch (st_items st) ->
  Forall (fun k => match k with KeyCol _ _ => True | KeyExp e => exact e /\ forall n, cast_column e = Some n -> ~ In n (map fst (st_items st)) end) (st_group st) ->
  map (key_value frepr ident ext lib nested r) (compile_keys frepr ident ext sch (st_group st)) = bare_key tt fn st r.
Proof.
  intros st sch r Ne F K. unfold compile_keys, bare_key. destruct (st_group st) as [|k0 g]; [congruence|]. clear Ne. generalize dependent (k0 :: g). clear k0 g. intros g K.
  rewrite map_map. apply map_ext_in. intros k I. rewrite Forall_forall in K. specialize (K k I). destruct k as [[] n|e]; cbn [compile_key name_value].
  - reflexivity.
  - pose proof (schema_assoc n sch (st_items st) F) as S. destruct (assoc n sch) as [gc|], (assoc n (st_items st)) as [e|]; try destruct S; [|reflexivity].
    destruct H as [-> H]. cbn [key_value]. apply H.
  - destruct K as [X NI]. destruct (cast_column e) as [n|] eqn:C.
    + pose proof (schema_assoc n sch (st_items st) F) as S. destruct (assoc n sch) as [gc|], (assoc n (st_items st)) as [e'|] eqn:A; try destruct S.
      * exfalso. apply (NI n eq_refl). apply assoc_pair in A. apply (in_map fst) in A. exact A.
      * cbn [key_value]. exact (compiled_value frepr ident ext lib tt no_neg e X r).
    + cbn [key_value]. exact (compiled_value frepr ident ext lib tt no_neg e X r).
Qed.
Lemma distinct_key_values : forall st cfg r,
  Forall2 (fun nc ne => fst nc = fst ne /\ exists q, snd nc = GPlain q /\ forall r, ev frepr ident ext lib r q = value r (snd ne)) (g_schema cfg) (st_items st) ->
  map (key_value frepr ident ext lib nested r) (distinct_keys cfg) = item_values tt fn st r.
Proof.
  intros st cfg r F. unfold distinct_keys, item_values. rewrite map_map. induction F as [|[m g] [m' e] sch items (E & q & Eg & H) F IH]; [reflexivity|]. cbn [map fst snd] in *. rewrite Eg, IH. cbn [key_value]. rewrite H. reflexivity.
Qed.

(** ** The rows of the groups *)
Lemma collapsed_groups : forall st cfg keys ck rows,
  Forall2 (fun nc ne => fst nc = fst ne /\ exists q, snd nc = GPlain q /\ forall r, ev frepr ident ext lib r q = value r (snd ne)) (g_schema cfg) (st_items st) ->
  (forall r, map (key_value frepr ident ext lib nested r) keys = ck r) -> Forall (fun r => equal_keys (ck r) (ck r) = true) rows ->
  collapsed_rows tt fn equal_keys ck st rows (collapsed_by frepr ident ext lib primary pick pick1 nested cfg keys rows).
Proof.
  intros st cfg keys ck rows F K R. unfold collapsed_rows, collapsed_by. cbv zeta.
  assert (G : groups frepr ident ext lib nested keys rows = grouped ck rows).
  { unfold groups, grouped. generalize (@nil (list val * list row)). clear - K. induction rows as [|r rows IH]; intros g; [reflexivity|]. cbn [fold_left]. rewrite K. apply IH. }
  rewrite G. destruct (grouped_spec ck rows) as [-> _].
  { eapply Forall_impl; [|exact R]. intros r H. unfold sm. rewrite <- equal_keys_same. exact H. }
  match goal with |- Forall2 _ ?k _ => assert (FK : k = map ck (firsts ck [] rows)) end.
  { symmetry. apply (firsts_keys ck equal_keys [] rows). intros a b. unfold sm. symmetry. apply equal_keys_same. }
  rewrite FK. clear FK.
  rewrite map_map. rewrite Forall2_map_l. assert (I : Forall (fun r => In r rows) (firsts ck [] rows)) by (apply Forall_forall; intros r; apply firsts_incl).
  induction I as [|r l I _ IH]; [constructor|]. cbn [map snd]. constructor; [|exact IH]. clear IH.
  assert (M : @members (list val) (text -> val) equal_keys (@map (text -> val) _ (fun r : text -> val => (ck r, r)) rows) (ck r) = filter (fun x => sm ck r x) rows).
  { etransitivity; [apply keyed_members|]. apply filter_ext. intros x. unfold sm. apply equal_keys_same. }
  rewrite M. assert (NE : filter (fun x => sm ck r x) rows <> []).
  { intros E. rewrite Forall_forall in R. assert (J : In r (filter (fun x => sm ck r x) rows)) by (apply filter_In; split; [exact I|unfold sm; rewrite <- equal_keys_same; apply R; exact I]).
    rewrite E in J. exact J. }
  unfold collapsed_row. cbv zeta. generalize (collapse_column primary (map fst (g_schema cfg))). intros alias. clear - F HP HP1 NE.
  induction F as [|[m g] [m' e] sch items (E & q & Eg & H) F IH]; [constructor|]. cbn [map fst snd] in *. constructor; [|exact IH]. cbn [fst snd]. split; [exact E|].
  rewrite Eg. eexists. split; [|apply H]. destruct (text_eqb m alias); [apply HP1|apply HP]; exact NE.
Qed.

(** ** LIMIT and OFFSET *)
Lemma collapse_limit : forall out agg grp dis (q : select row output) src, plain_limit (s_limit _ _ q) -> (s_limit _ _ q = None \/ s_having _ _ q <> None) ->
  run_select row output val leK (fun n r => r n) field out agg grp dis q src =
  do l <- run_select row output val leK (fun n r => r n) field out agg grp dis (with_limit q None None) src; Ok (paged (s_limit _ _ q) (s_offset _ _ q) l).
Proof.
  intros out agg grp dis q src PL LH.
  assert (E : q = with_limit q (s_limit _ _ q) (s_offset _ _ q)) by (destruct q; reflexivity). rewrite E at 1. unfold paged.
  destruct (s_limit row output q) as [n|].
  - rewrite limit_page; [|exact (PL n eq_refl)|]. 2: { intros _. right. left. destruct LH as [LH|LH]; [discriminate LH|exact LH]. }
    destruct (run_select _ _ _ _ _ _ _ _ _ _ _ src) as [l|]; [|reflexivity]. cbn [bind]. unfold page. rewrite paged_skipped. reflexivity.
  - destruct (s_offset row output q) as [o|].
    + apply offset_only.
    + destruct (run_select _ _ _ _ _ _ _ _ _ _ _ src); reflexivity.
Qed.

(** ** The statement *)
Lemma collapsed_select : forall d st table ck keys_of kind_,
  collapsing_body tt fn st ->
  (forall cfg pred hav, g_agg cfg = [] -> map fst (g_schema cfg) = map fst (st_items st) -> g_schema cfg <> [] ->
     select_kind _ _ (set_distinct d (to_select frepr ident ext lib rematch st cfg pred hav)) = Ok kind_) ->
  (kind_ = KGrouped /\ (forall cfg, keys_of cfg = compile_keys frepr ident ext (g_schema cfg) (st_group st)) \/ kind_ = KDistinct /\ (forall cfg, keys_of cfg = distinct_keys cfg)) ->
  (forall cfg r, Forall2 (fun nc ne => fst nc = fst ne /\ exists q, snd nc = GPlain q /\ forall r, ev frepr ident ext lib r q = value r (snd ne)) (g_schema cfg) (st_items st) ->
     map (key_value frepr ident ext lib nested r) (keys_of cfg) = ck r) ->
  Forall (fun nd => exists e, In (fst nd, e) (st_items st) /\
     ((e = ECol (fst nd) /\ forall r r', equal_keys (ck r) (ck r') = true -> pyeq (r (fst nd)) (r' (fst nd)) = true) \/ ~ used st (fst nd))) (st_order st) ->
  proper_keys tt fn equal_keys ck st table ->
  exists out, run_collapsed frepr ident ext lib str_of primary pick pick1 nested raw state_name other rematch leK d st table = Ok out /\
              collapsed_result tt fn leK equal_keys ck st table out.
Proof.
  intros d st table ck keys_of kind_ (NI & ND & F & PW & PH & PL & LH) KK KC CK O PK. rewrite Forall_forall in O.
  destruct (free_schema st ND F) as (cfg & C & Names & NA & Row). specialize (CK cfg).
  assert (CK' : forall r, map (key_value frepr ident ext lib nested r) (keys_of cfg) = ck r) by (intros r; apply CK; exact Row). clear CK. rename CK' into CK.
  destruct (where_whole frepr ident ext lib tt no_neg cfg (st_where st) PW) as (pred & R & W & _).
  destruct (having_whole frepr ident ext lib tt no_neg other rematch st (map fst (g_schema cfg)) PH) as (hav & H & HV); [rewrite Names; auto|].
  set (q := set_distinct d (to_select frepr ident ext lib rematch st cfg pred hav)).
  set (src := filter (fun r => source_keeps frepr ident ext lib r (snd (where_parts frepr ident ext (st_where st)))) table).
  set (good := filter (holds tt fn (st_where st)) table).
  assert (Eq : keep (s_predicate row output q) src = good).
  { unfold src, good, q, set_distinct, to_select, select_by. cbn [s_predicate]. rewrite keep_filter. apply filter_ext. intros r. etransitivity; [|exact (W r)]. destruct pred; reflexivity. }
  assert (HK : forall l, keep (s_having row output q) l = filter (fun o => holds tt fn (st_having st) (column o)) l).
  { intros l. unfold q, set_distinct, to_select, select_by. cbn [s_having]. apply keep_as. intros o. etransitivity; [|exact (HV o)]. destruct hav; reflexivity. }
  assert (NS : g_schema cfg <> []) by (intros E; rewrite E in Names; destruct (st_items st); [congruence|discriminate Names]).
  specialize (KK cfg pred hav NA Names NS). fold q in KK.
  (* ORDER BY *)
  assert (OC : exists op, compile_order _ _ q = Ok op).
  { apply order_ok. exists (map fst (g_schema cfg)). split; [reflexivity|]. rewrite Names. left. intros it I.
    unfold q, set_distinct, to_select, select_by in I. cbn [s_order] in I. apply in_map_iff in I as ([n ds] & <- & I). exists n, ds. split; [reflexivity|]. destruct (O _ I) as (e & J & _).
    apply (in_map fst) in J. exact J. }
  assert (Pushed : forall n ds, In (n, ds) (st_order st) -> pushed _ _ q [] n = true -> In (n, ECol n) (st_items st) /\ forall r r', equal_keys (ck r) (ck r') = true -> pyeq (r n) (r' n) = true).
  { intros n ds I P. unfold pushed, has_alias in P. unfold q, set_distinct, to_select, select_by, aggregate_part in P. cbn [s_schema s_columns s_alias s_table s_aggregate] in P. rewrite NA, Names in P.
    destruct (O _ I) as (e & J & X). cbn [fst] in J, X. destruct X as [[-> X]|U]; [split; assumption|]. exfalso.
    assert (P' : memb n (columns_by (where_parts frepr ident ext (st_where st)) st cfg) || negb (memb n (map fst (st_items st))) = true) by (destruct (st_having st); exact P). clear P.
    apply orb_prop in P'. destruct P' as [P|P].
    - apply U. apply memb_In in P. eapply known_used; eassumption.
    - apply negb_true_iff in P. apply (in_map fst) in J. cbn [fst] in J. apply memb_In in J. congruence. }
  destruct OC as ([o p] & OC).
  (* the rows the groups are made of *)
  set (rows := keep (s_predicate _ _ q) (sort (le_by val leK (fun n r => r n) o) src)).
  assert (PR : Permutation good rows).
  { rewrite <- Eq. unfold rows. pose proof (sort_perm _ (le_by val leK (fun n (r : row) => r n) o) src) as Z. destruct (s_predicate row output q); cbn [keep]; [apply filter_perm|]; exact Z. }
  set (grows := collapsed_by frepr ident ext lib primary pick pick1 nested cfg (keys_of cfg) rows).
  assert (FG : collapsed_rows tt fn equal_keys ck st rows grows).
  { apply collapsed_groups; [exact Row|exact CK|]. apply Forall_forall. intros r I. assert (J : In r good) by (eapply Permutation_in; [symmetry; exact PR|exact I]).
    apply filter_In in J. destruct J as [J1 J2]. apply PK; assumption. }
  (* as a [run_select] *)
  set (col := collapsed_by frepr ident ext lib primary pick pick1 nested cfg (keys_of cfg)).
  assert (Run : run_collapsed frepr ident ext lib str_of primary pick pick1 nested raw state_name other rematch leK d st table =
     run_select row output val leK (fun n r => r n) field (fun _ => []) (fun _ => []) col col q src).
  { unfold run_collapsed, compile_collapsed. cbv zeta. rewrite C. cbn [bind]. rewrite R. cbn [bind]. rewrite H. cbn [bind].
    change (set_distinct d (select_by frepr ident ext lib rematch (where_parts frepr ident ext (st_where st)) st cfg pred hav)) with q.
    unfold run_select. unfold compile_select. rewrite OC. cbn [bind snd fst]. destruct (compile_limit _ _ q p) as [p' l']. rewrite KK. cbn [bind p_config p_task t_kind t_having t_pipelines].
    unfold loaded, run_task. cbn [p_task p_querys t_kind t_having t_pipelines t_predicate t_limit t_orders]. fold src.
    destruct KC as [[-> KC]|[-> KC]]; cbn [bind compute]; unfold col; rewrite <- KC; reflexivity. }
  rewrite Run, collapse_limit; [|exact PL|].
  2: { destruct LH as [LH|LH]; [left; exact LH|right]. unfold q, set_distinct, to_select, select_by. cbn [s_having]. destruct (st_having st) as [e|]; [|congruence].
       destruct (having frepr ident ext (Some (map fst (g_schema cfg))) other e); cbn [bind] in H; [|discriminate H]. injection H as <-. discriminate. }
  assert (RL : run_select row output val leK (fun n r => r n) field (fun _ => []) (fun _ => []) col col (with_limit q None None) src =
     Ok (fold_left (apply_pipeline output val leK field) p (keep (s_having _ _ q) grows))).
  { unfold run_select, compile_select. rewrite order_with_limit, OC. cbn [bind snd fst]. unfold compile_limit. cbn [s_limit s_offset with_limit]. change (negb (0 =? 0) || (0 <? 0))%bool with false. cbv iota zeta.
    change (select_kind row output (with_limit q None None)) with (select_kind row output q). rewrite KK. cbn [bind]. unfold run_task. cbn [t_pipelines t_having t_kind t_predicate t_limit t_orders].
    change (take 0 ?l) with l. change (s_predicate row output (with_limit q None None)) with (s_predicate row output q).
    change (keep (s_predicate row output q) (sort (le_by val leK (fun n r => r n) o) src)) with rows.
    destruct KC as [[-> _]|[-> _]]; reflexivity. }
  rewrite RL. cbn [bind]. eexists. split; [reflexivity|].
  exists rows, grows, (fold_left (apply_pipeline output val leK field) p (keep (s_having _ _ q) grows)).
  split; [exact PR|]. split; [exact FG|]. rewrite HK.
  set (sel := filter (fun o => holds tt fn (st_having st) (column o)) grows).
  set (key := fun it (r : row) => match it with OCol _ n _ => r n | OExp _ _ _ => VNone end).
  set (key_out := fun it (x : output) => match it with OCol _ n _ => field n x | OExp _ _ _ => VNone end).
  assert (Exps : forall sql lsql ds, ~ In (OExp sql lsql ds) (s_order _ _ q)).
  { intros sql lsql ds I. unfold q, set_distinct, to_select, select_by in I. cbn [s_order] in I. apply in_map_iff in I as (? & E & _). discriminate E. }
  assert (OL : forall x y, order_le val leK key_out (s_order _ _ q) x y = lex_le leK (map (fun nd => ((fun o => column o (fst nd)), snd nd)) (st_order st)) x y).
  { intros x y. unfold order_le, q, set_distinct, to_select, select_by. cbn [s_order]. rewrite map_map. reflexivity. }
  assert (None_ : st_order st = [] -> o = [] /\ p = []).
  { intros E. unfold compile_order, q, set_distinct, to_select, select_by in OC. cbn [s_order] in OC. rewrite E in OC. cbn in OC. injection OC as <- <-. split; reflexivity. }
  destruct (order_cases row output val leK (fun n r => r n) field (fun _ => []) (fun _ => []) col col key output q field key_out o p OC) as [[-> Le]|(ks & k' & -> & Lo & _)].
  - intros tb n ds _ _ r. reflexivity.
  - intros schema _. split; [intros tb n ds _ _ x; reflexivity|intros sql lsql ds I; destruct (Exps _ _ _ I)].
  - cbn [fold_left]. split; [reflexivity|]. split; [|split; [|reflexivity]].
    + apply (sublist_sorted _ _ _ grows); [apply sublist_filter|].
      destruct (keyed_firsts _ _ equal_keys ck rows []) as (firsts & S & E).
      assert (SF : StronglySorted (fun x y => order_le val leK key (s_order _ _ q) x y = true) firsts).
      { eapply sublist_sorted; [exact S|]. unfold rows. rewrite (sort_ext _ _ (order_le val leK key (s_order _ _ q)) _ Le).
        assert (S0 : StronglySorted (fun x y => order_le val leK key (s_order _ _ q) x y = true) (sort (order_le val leK key (s_order _ _ q)) src)) by (apply sort_sorted, order_le_total; exact TK).
        destruct (s_predicate _ _ q); cbn [keep]; [eapply sublist_sorted; [apply sublist_filter|exact S0]|exact S0]. }
      pose proof FG as FG'. unfold collapsed_rows in FG'. cbv zeta in FG'. unfold Reduce_Spec.keys in FG'.
      assert (E2 : @keys_from (list val) (text -> val) equal_keys [] (@map (text -> val) _ (fun r : text -> val => (ck r, r)) rows) = map ck firsts) by (symmetry; exact E). rewrite E2 in FG'. rewrite Forall2_map_l in FG'.
      eapply sorted_related; [|exact FG'|exact SF]. cbn beta. intros a x b y Fa Fb Lab. rewrite <- Lab. rewrite <- OL. unfold order_le, q, set_distinct, to_select, select_by. cbn [s_order]. rewrite !map_map.
      symmetry. unfold key, key_out. cbn [descending].
      assert (Equi : forall n ds r0 z, In (n, ds) (st_order st) ->
          Forall2 (fun ne nv => fst nv = fst ne /\ exists r, In r (members equal_keys (map (fun r => (ck r, r)) rows) (ck r0)) /\ snd nv = value r (snd ne)) (st_items st) z ->
          leK (r0 n) (field n z) = true /\ leK (field n z) (r0 n) = true).
      { intros n ds r0 z In_ Fz. assert (Pn : pushed _ _ q [] n = true).
        { apply (order_pushed q o OC [] n ds). unfold q, set_distinct, to_select, select_by. cbn [s_order]. apply in_map_iff. exists (n, ds). split; [reflexivity|exact In_]. }
        destruct (Pushed n ds In_ Pn) as (Ii & Same).
        pose proof (item_field (fun e v => exists r, In r (members equal_keys (map (fun r => (ck r, r)) rows) (ck r0)) /\ v = value r e) _ _ n (ECol n) ND Ii Fz) as (r & Ir & ->). cbn [sem].
        rewrite keyed_members in Ir. apply filter_In in Ir. destruct Ir as [_ Ir]. apply EQ, Same. exact Ir. }
      pose proof (lex_equivalent row output val leK TK (map (fun nd : text * bool => (((fun r : row => r (fst nd)), (fun x : output => field (fst nd) x)), snd nd)) (st_order st)) a b x y) as LE.
      rewrite !map_map in LE. cbn [fst snd] in LE. apply LE. intros f g ds I. apply in_map_iff in I as ([n d'] & E' & I). injection E' as <- <- <-. cbn [fst].
      destruct (Equi n d' a x I Fa) as [X1 X2]. destruct (Equi n d' b y I Fb) as [Y1 Y2]. auto.
    + intros E0. destruct (None_ E0) as [-> _]. split; [|reflexivity]. unfold rows. etransitivity; [|exact Eq]. f_equal.
      generalize src. intros l. clear. induction l as [|x l IH]; [reflexivity|]. unfold sort in *. cbn [fold_right]. rewrite IH. destruct l; reflexivity.
  - cbn [fold_left apply_pipeline]. rewrite (sort_ext _ _ _ _ Lo). split; [apply sort_perm|]. split; [|split; [|reflexivity]].
    + assert (S0 : StronglySorted (fun x y => order_le val leK key_out (s_order _ _ q) x y = true) (sort (order_le val leK key_out (s_order _ _ q)) sel)) by (apply sort_sorted, order_le_total; exact TK).
      eapply sorted_weaken; [|exact S0]. intros x y L. rewrite <- OL. exact L.
    + intros E0. destruct (None_ E0) as [_ X]. discriminate X.
Qed.
End Collapse.

(** C224.  Every statement of the class [bare_group_statement] is accepted, and whatever the table, provided its keys have no NaN, its result is: the rows on
    which WHERE is TRUE, in some order; one row for each distinct value of the GROUP BY items on them, each item having its value on a row of the group;
    of these the rows on which HAVING is TRUE, sorted by ORDER BY; and of these the page given by LIMIT and OFFSET.  Without ORDER BY all is in the order
    of the table. *)
Theorem bare_group_select : forall frepr ident ext lib tt str_of primary pick pick1 nested raw state_name other rematch leK,
  ext (t "neg") = None -> total_preorder leK -> (forall a b, pyeq a b = true -> leK a b = true /\ leK b a = true) ->
  (forall rs, rs <> [] -> In (pick rs) rs) -> (forall rs, rs <> [] -> In (pick1 rs) rs) ->
  let fn := sql_fn frepr ident ext lib in
  forall st table, bare_group_statement tt fn st -> proper_keys tt fn equal_keys (bare_key tt fn st) st table ->
  exists out, run_collapsed frepr ident ext lib str_of primary pick pick1 nested raw state_name other rematch leK false st table = Ok out /\
              collapsed_result tt fn leK equal_keys (bare_key tt fn st) st table out.
Proof.
  intros fr id ext lib tt so pr pick pick1 nested raw nm other rm leK NN TK EQ HP HP1 fn st table (B & NG & GK & O) PK.
  eapply (collapsed_select fr id ext lib tt NN so pr pick pick1 nested raw nm other rm leK TK EQ HP HP1 false st table (bare_key tt fn st) (fun cfg => compile_keys fr id ext (g_schema cfg) (st_group st)) KGrouped B).
  - intros cfg pred hav NA Names NS. unfold select_kind, has_aggregates, set_distinct, to_select, select_by, aggregate_part. cbn [s_aggregate s_group s_distinct s_schema]. rewrite NA.
    destruct (g_schema cfg) as [|c l]; [congruence|]. destruct (st_group st); [congruence|]. destruct (st_having st); reflexivity.
  - left. split; reflexivity.
  - intros cfg r F. apply bare_keys; assumption.
  - pose proof B as (_ & ND & _). eapply Forall_impl; [|exact O]. cbn beta. intros [n d] (e & I & X). cbn [fst] in *. exists e. split; [exact I|]. destruct X as [[-> (q & J)]|U]; [left|right; exact U].
    split; [reflexivity|]. intros r r' E. unfold bare_key in E. pose proof (equal_keys_at _ _ _ _ _ J E) as V. destruct q; cbn [name_value] in V; [exact V|].
    rewrite (assoc_nodup _ n _ (ECol n) ND I) in V. exact V.
  - exact PK.
Qed.
Print Assumptions bare_group_select.

(** ** DISTINCT *)
Lemma keys_apart : forall K V (same : K -> K -> bool) (rows : list (K * V)) seen,
  ForallOrdPairs (fun a b => same a b = false) (keys_from same seen rows) /\ Forall (fun k => Forall (fun s => same s k = false) seen) (keys_from same seen rows).
Proof.
  intros K V same. induction rows as [|[k v] rows IH]; intros seen; [split; constructor|]. cbn [keys_from].
  destruct (existsb (fun k' => same k' k) seen) eqn:E; [apply IH|]. destruct (IH (seen ++ [k])) as [P F]. split.
  - constructor; [|exact P]. eapply Forall_impl; [|exact F]. cbn beta. intros a H. apply Forall_app in H. destruct H as [_ H]. apply Forall_inv in H. exact H.
  - constructor; [apply existsb_false_Forall; exact E|]. eapply Forall_impl; [|exact F]. cbn beta. intros a H. apply Forall_app in H. apply H.
Qed.
Lemma keys_come_from : forall K V (same : K -> K -> bool) (f : V -> K) rows seen k, In k (keys_from same seen (map (fun r => (f r, r)) rows)) -> exists r, k = f r.
Proof.
  intros K V same f. induction rows as [|r rows IH]; intros seen k I; [destruct I|]. cbn [map keys_from] in I.
  destruct (existsb (fun k' => same k' (f r)) seen); [eapply IH; exact I|]. destruct I as [<-|I]; [exists r; reflexivity|eapply IH; exact I].
Qed.
Lemma pairs_related : forall A B (P : A -> A -> Prop) (Q : B -> B -> Prop) (R : A -> B -> Prop), (forall a b x y, R a x -> R b y -> P a b -> Q x y) ->
  forall l l', Forall2 R l l' -> ForallOrdPairs P l -> ForallOrdPairs Q l'.
Proof.
  intros A B P Q R H l l' F. induction F as [|a x l l' Ra F IH]; intros O; [constructor|]. inversion O as [|? ? O1 O2]; subst. constructor; [|exact (IH O2)].
  clear IH O O2. induction F as [|b y l l' Rb F IH]; [constructor|]. inversion O1 as [|? ? P1 P2]; subst. constructor; [eapply H; eassumption|exact (IH P2)].
Qed.
Lemma pairs_sublist : forall A (P : A -> A -> Prop) l l', sublist l l' -> ForallOrdPairs P l' -> ForallOrdPairs P l.
Proof.
  intros A P l l' S. induction S; intros O; [constructor| |]; (inversion O as [|? ? O1 O2]; subst); try (apply IHS; exact O2).
  constructor; [|apply IHS; exact O2]. apply Forall_forall. intros y I. rewrite Forall_forall in O1. apply O1. eapply sublist_in; eassumption.
Qed.
Lemma pairs_perm : forall A (P : A -> A -> Prop) l l', (forall x y, P x y -> P y x) -> Permutation l l' -> ForallOrdPairs P l -> ForallOrdPairs P l'.
Proof.
  intros A P l l' Sy S. induction S as [|x l l' S IH|x y l|l l' l'' S1 IH1 S2 IH2]; intros O; [constructor| | |auto].
  - inversion O as [|? ? O1 O2]; subst. constructor; [|apply IH; exact O2]. eapply Permutation_Forall; eassumption.
  - inversion O as [|? ? O1 O2]; subst. inversion O2 as [|? ? O3 O4]; subst. inversion O1 as [|? ? O5 O6]; subst. constructor; [constructor; [apply Sy; exact O5|exact O3]|]. constructor; [exact O6|exact O4].
Qed.
Lemma sublist_paged : forall A limit offset (l : list A), sublist (paged limit offset l) l.
Proof.
  assert (Re : forall A (l : list A), sublist l l) by (intros A l; induction l; [apply Sub_nil|apply Sub_keep; assumption]).
  assert (Sk : forall A n (l : list A), sublist (skipn n l) l).
  { intros A. induction n as [|n IH]; intros l; [apply Re|]. destruct l; [apply Sub_nil|]. cbn [skipn]. apply Sub_skip. apply IH. }
  assert (Fi : forall A n (l : list A), sublist (firstn n l) l).
  { intros A. induction n as [|n IH]; intros l; cbn [firstn]; [induction l; [apply Sub_nil|apply Sub_skip; assumption]|]. destruct l; [apply Sub_nil|apply Sub_keep; apply IH]. }
  assert (Tr : forall A (a b : list A), sublist a b -> forall c, sublist b c -> sublist a c).
  { intros A a0 b0 S c T. revert a0 S. induction T as [|x b c T IH|x b c T IH]; intros a0 S; [exact S|apply Sub_skip, IH; exact S|].
    inversion S; subst; [apply Sub_skip|apply Sub_keep]; apply IH; assumption. }
  intros A limit offset l. unfold paged. cbv zeta.
  assert (S : sublist match offset with Some o => skipn (Z.to_nat o) l | None => l end l) by (destruct offset; [apply Sk|apply Re]).
  destruct limit; [|exact S]. eapply Tr; [apply Fi|exact S].
Qed.

(** No two rows of the result of DISTINCT are equal. *)
Lemma distinct_apart : forall tt fn leK st table out, collapsed_result tt fn leK equal_keys (item_values tt fn st) st table out ->
  ForallOrdPairs (fun x y => equal_keys (map snd x) (map snd y) = false) out.
Proof.
  intros tt fn leK st table out Re. destruct Re as (rows & grows & sorted & _ & FG & PS & _ & _ & ->).
  apply (pairs_sublist _ _ _ sorted); [apply sublist_paged|]. eapply pairs_perm; [|exact PS|].
  { intros x y H. rewrite equal_keys_same, same_sym, <- equal_keys_same. exact H. }
  apply (pairs_sublist _ _ _ grows); [apply sublist_filter|].
  set (keyed := map (fun r : text -> val => (item_values tt fn st r, r)) rows) in *.
  assert (KF : Forall2 (fun k o => equal_keys k (map snd o) = true) (keys equal_keys keyed) grows).
  { assert (CF : Forall (fun k => exists r, k = item_values tt fn st r) (keys equal_keys keyed)) by (apply Forall_forall; intros k I; eapply keys_come_from; exact I).
    unfold collapsed_rows in FG. cbv zeta in FG. fold keyed in FG. revert CF FG. generalize (keys equal_keys keyed). intros ks CF FG. clear PS. induction FG as [|k o ks grows Fo FG IH]; [constructor|].
    inversion CF as [|? ? (r0 & ->) CF']; subst. constructor; [|exact (IH CF')]. clear - Fo. rewrite equal_keys_same. 
    assert (M : forall ne r, In ne (st_items st) -> In r (members equal_keys keyed (item_values tt fn st r0)) -> pyeq (sem tt fn r0 (snd ne)) (sem tt fn r (snd ne)) = true).
    { intros ne r I Ir. unfold keyed in Ir. rewrite keyed_members in Ir. apply filter_In in Ir. destruct Ir as [_ Ir].
      exact (equal_keys_at _ (fun ne => sem tt fn r0 (snd ne)) (fun ne => sem tt fn r (snd ne)) _ _ I Ir). }
    revert M Fo. generalize (members equal_keys keyed (item_values tt fn st r0)). intros ms M Fo. unfold item_values. induction Fo as [|ne nv l o (_ & r & Ir & Ev) Fo IH]; [reflexivity|]. cbn [map same_key].
    rewrite Ev. apply andb_true_intro. split; [exact (M ne r (or_introl eq_refl) Ir)|]. apply IH. intros ne' r' I'. apply M. right. exact I'. }
  eapply pairs_related; [|exact KF|apply (keys_apart _ _ equal_keys keyed [])]. cbn beta. intros a b x y Ha Hb Hab. rewrite equal_keys_same in *.
  destruct (same_key (map snd x) (map snd y)) eqn:E; [|reflexivity]. rewrite <- Hab. symmetry. eapply same_trans; [exact Ha|]. eapply same_trans; [exact E|]. rewrite same_sym. exact Hb.
Qed.

(** C225.  Every SELECT DISTINCT of the class [distinct_statement] is accepted, and whatever the table, provided the values have no NaN, its result is: the rows on
    which WHERE is TRUE, in some order; one row for each distinct combination of the values of all items; of these the rows on which HAVING is
    TRUE, sorted by ORDER BY; and of these the page given by LIMIT and OFFSET.  No two rows of the result are equal. *)
Theorem distinct_select : forall frepr ident ext lib tt str_of primary pick pick1 nested raw state_name other rematch leK,
  ext (t "neg") = None -> total_preorder leK -> (forall a b, pyeq a b = true -> leK a b = true /\ leK b a = true) ->
  (forall rs, rs <> [] -> In (pick rs) rs) -> (forall rs, rs <> [] -> In (pick1 rs) rs) ->
  let fn := sql_fn frepr ident ext lib in
  forall st table, distinct_statement tt fn st -> proper_keys tt fn equal_keys (item_values tt fn st) st table ->
  exists out, run_collapsed frepr ident ext lib str_of primary pick pick1 nested raw state_name other rematch leK true st table = Ok out /\
              collapsed_result tt fn leK equal_keys (item_values tt fn st) st table out /\
              ForallOrdPairs (fun x y => equal_keys (map snd x) (map snd y) = false) out.
Proof.
  intros fr id ext lib tt so pr pick pick1 nested raw nm other rm leK NN TK EQ HP HP1 fn st table (B & NG & O) PK.
  destruct (collapsed_select fr id ext lib tt NN so pr pick pick1 nested raw nm other rm leK TK EQ HP HP1 true st table (item_values tt fn st) distinct_keys KDistinct B) as (out & Ro & Re).
  - intros cfg pred hav NA Names NS. unfold select_kind, has_aggregates, set_distinct, to_select, select_by, aggregate_part. cbn [s_aggregate s_group s_distinct s_schema]. rewrite NA, NG.
    destruct (g_schema cfg) as [|c l]; [congruence|]. destruct (st_having st); reflexivity.
  - right. split; reflexivity.
  - intros cfg r F. apply distinct_key_values. exact F.
  - eapply Forall_impl; [|exact O]. cbn beta. intros [n d] (e & I & X). cbn [fst] in *. exists e. split; [exact I|]. destruct X as [->|U]; [left|right; exact U].
    split; [reflexivity|]. intros r r' E. exact (equal_keys_at _ (fun ne => sem tt fn r (snd ne)) (fun ne => sem tt fn r' (snd ne)) _ _ I E).
  - exact PK.
  - exists out. split; [exact Ro|]. split; [exact Re|]. exact (distinct_apart _ _ _ _ _ _ Re).
Qed.
Print Assumptions distinct_select.

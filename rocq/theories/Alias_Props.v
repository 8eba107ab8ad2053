(** C226: a SELECT statement over a table with or without alias. *)
From Coq Require Import SpecFloat Permutation Sorting.Sorted.
From Verif Require Import Base PyVal Utils_Model Calc_Model Expr_Syntax Expr_Model Expr_Spec Expr_Proofs Expr_Props Where_Model Where_Spec Having_Model Having_Spec
  Agg_Spec Reduce_Spec Group_Syntax Group_Model Group_Spec Group_Proofs Group_Props Inner_Syntax Inner_Model Inner_Spec Inner_Proofs Inner_Props
  Select_Model Select_Spec Select_Proofs Select_Props Whole_Syntax Cast_Syntax Cast_Where Cast_Spec Whole_Model Whole_Spec Whole_Proofs Whole_Props
  Collapse_Model Collapse_Spec Collapse_Props Alias_Model Alias_Spec Alias_Proofs.
Open Scope Z_scope.

Section Alias.
Variable frepr : spec_float -> text.
Variable ident : val -> val -> bool.
Variable ext : text -> option (list val -> val).
Variable lib : text -> list val -> val.
Variable tt : text -> bool.
Hypothesis no_neg : ext (t "neg") = None.
Variable str_of : val -> text.
Variable primary : option text.
Variable pick pick1 : list row -> row.
Variable nested : text -> row -> val.
Variable raw : list (text * state) -> val.
Variable state_name : path -> text.
Variable other : expr -> res hcol.
Variable rematch : text -> val -> bool.
Variable leK : val -> val -> bool.
Hypothesis TK : total_preorder leK.
Hypothesis EQ : forall a b, pyeq a b = true -> leK a b = true /\ leK b a = true.
Hypothesis HP : forall rs, rs <> [] -> In (pick rs) rs.
Hypothesis HP1 : forall rs, rs <> [] -> In (pick1 rs) rs.
Hypothesis INJ : forall p q, state_name p = state_name q -> p = q.
Let fn := sql_fn frepr ident ext lib.
Notation run_aliased := (run_aliased frepr ident ext lib str_of primary pick pick1 nested raw state_name other rematch leK).
Notation reserved := (fun n => exists p, n = state_name p).
Notation by_column st := (lex_le leK (map (fun nd : text * bool => ((fun o : list (text * val) => column o (fst nd)), snd nd)) (st_order st))).

Lemma free_no_aggregates : forall st, Forall (fun ne => exact (snd ne) /\ ~ uses_aggregate (snd ne) /\ forall v, snd ne <> ENeg (EConst v)) (st_items st) -> ~ aggregates st.
Proof. intros st F (n & e & I & U). rewrite Forall_forall in F. destruct (F _ I) as (_ & N & _). exact (N U). Qed.
Lemma written_aggregates : forall st, plain_written (mkwritten (st_items st) (st_group st)) -> aggregates st.
Proof. intros st (_ & _ & _ & E). apply Exists_exists in E as ([n e] & I & U). exists n, e. split; assumption. Qed.
Lemma free_names : forall st, free_items st -> forall cfg, compile_written state_name frepr ident ext (mkwritten (st_items st) (st_group st)) = Ok cfg ->
  map fst (g_schema cfg) = map fst (st_items st) /\ g_agg cfg = [].
Proof.
  intros st (ND & F) cfg C. destruct (free_schema frepr ident ext lib tt no_neg state_name st ND F) as (cfg' & C' & N & A & _). rewrite C in C'. injection C' as <-. split; assumption.
Qed.
Lemma sorted_page : forall st (sel : list (list (text * val))),
  Permutation sel (sort (by_column st) sel) /\ StronglySorted (fun x y => by_column st x y = true) (sort (by_column st) sel) /\
  (st_order st = [] -> sort (by_column st) sel = sel).
Proof.
  intros st sel. split; [apply sort_perm|]. split; [apply sort_sorted, lex_total; exact TK|]. intros E. rewrite E. cbn [map]. apply insert_true. reflexivity.
Qed.

(** From the statement without ORDER BY and LIMIT. *)
Lemma aliased_plain : forall a st table, a <> [] -> free_items st -> st_group st = [] -> clauses tt fn st -> by_items st ->
  exists out, run_aliased (Some a) false st table = Ok out /\ plain_result tt fn leK st table out.
Proof.
  intros a st table NE FI G (PW & PH & PL) O.
  assert (P : plain_statement tt fn (bare st)).
  { destruct FI as [ND F]. unfold plain_statement. cbn [bare st_items st_group st_where st_having st_limit st_order]. repeat (split; [assumption|]). split; [intros n [=]|]. left. apply Forall_nil. }
  destruct (plain_select frepr ident ext lib tt str_of pick nested raw state_name other rematch leK no_neg TK (bare st) table P) as (outs & Ro & rows & SA & Eo).
  apply (no_alias_statement frepr ident ext lib str_of primary pick pick1) in Ro.
  exists (paged (st_limit st) (st_offset st) (sort (by_column st) outs)). split.
  { apply (aliased_run frepr ident ext lib str_of primary pick pick1 nested raw state_name other rematch leK a false st table outs NE); try assumption.
    - intros cfg C. apply (free_names st FI cfg C).
    - right. right. right. intros cfg pred hav C. destruct (free_names st FI cfg C) as [_ NA]. unfold select_kind, has_aggregates, has_windows, set_distinct, to_select, select_by, aggregate_part.
      cbn [s_aggregate s_group s_distinct s_schema bare st_having st_group]. rewrite NA, G. destruct (st_having st); split; discriminate. }
  cbn [bare st_order st_limit st_offset paged] in SA, Eo. cbn [map] in SA.
  assert (Er : rows = filter (holds tt fn (st_where st)) table).
  { apply (sorted_as_unique _ (lex_le leK (@nil ((row -> val) * bool))) (lex_total _ _ leK TK []) (filter (holds tt fn (st_where st)) table)); [exact SA|].
    pose proof (sort_sorted_as _ (lex_le leK (@nil ((row -> val) * bool))) (lex_total _ _ leK TK []) (filter (holds tt fn (st_where st)) table)) as S. rewrite insert_true in S by reflexivity. exact S. }
  subst rows. clear SA.
  set (le := lex_le leK (map (fun nd : text * bool => (order_value tt fn st (fst nd), snd nd)) (st_order st))).
  assert (TL : total_preorder le) by (apply lex_total; exact TK).
  exists (sort le (filter (holds tt fn (st_where st)) table)). split; [apply sort_sorted_as; exact TL|]. f_equal. rewrite Eo.
  change (st_having (bare st)) with (st_having st).
  rewrite sort_filter by (apply lex_total; exact TK). f_equal. rewrite sort_map. f_equal. apply sort_ext. intros x y. unfold le.
  destruct FI as [ND _]. 
  assert (V : forall n r, In n (map fst (st_items st)) -> column (result_row tt (sql_fn frepr ident ext lib) (bare st) r) n = order_value tt fn st n r).
  { intros n r I. apply in_map_iff in I as ([m e] & <- & I). cbn [fst]. unfold column, order_value, result_row. cbn [bare st_items]. rewrite (assoc_nodup _ m _ e ND I).
    change (sem tt (sql_fn frepr ident ext lib)) with (sem tt fn).
    rewrite (assoc_nodup _ m (map (fun ne : text * expr => (fst ne, sem tt fn r (snd ne))) (st_items st)) (sem tt fn r e)); [reflexivity|rewrite map_map; exact ND|].
    apply in_map_iff. exists (m, e). split; [reflexivity|exact I]. }
  clear - V O. unfold by_items in O. induction O as [|[n d] l I _ IH]; [reflexivity|]. cbn [map lex_le fst snd] in *. rewrite IH. assert (V' := fun r => V n r I). destruct d; cbn [fst snd]; rewrite !V'; reflexivity.
Qed.
Lemma aliased_grouped : forall a st table, a <> [] -> plain_written (mkwritten (st_items st) (st_group st)) -> clauses tt fn st -> by_items st ->
  unreserved reserved st -> summable_groups tt fn equal_keys st table ->
  exists out, run_aliased (Some a) false st table = Ok out /\ grouped_result tt fn str_of leK equal_keys st table out.
Proof.
  intros a st table NE PWr (PW & PH & PL) O FR SG.
  assert (FR' : forall p m e, In (m, e) (st_items st) -> ~ mentions (state_name p) e) by (intros p m e I; apply (FR _ m e); [exists p; reflexivity|exact I]).
  assert (P : grouped_statement tt fn (bare st)).
  { unfold grouped_statement. cbn [bare st_items st_group st_where st_having st_limit st_order]. repeat (split; [assumption|]). split; [intros n [=]|]. apply Forall_nil. }
  destruct (grouped_select frepr ident ext lib tt str_of pick nested raw state_name other rematch leK no_neg TK EQ HP INJ (bare st) table P FR' SG) as (outs & Ro & rows & grows & sorted & PR & GR & PS & _ & NO & Eo).
  apply (no_alias_statement frepr ident ext lib str_of primary pick pick1) in Ro. destruct (NO eq_refl) as [-> ->]. cbn [bare st_limit st_offset paged] in Eo.
  exists (paged (st_limit st) (st_offset st) (sort (by_column st) outs)). split.
  { apply (aliased_run frepr ident ext lib str_of primary pick pick1 nested raw state_name other rematch leK a false st table outs NE); try assumption.
    - intros cfg C. destruct (grouped_config frepr ident ext state_name INJ _ PWr FR') as (cfg' & C' & N & _). rewrite C in C'. injection C' as <-. exact N.
    - right. right. right. intros cfg pred hav C. destruct (grouped_config frepr ident ext state_name INJ _ PWr FR') as (cfg' & C' & _ & NA & _). rewrite C in C'. injection C' as <-.
      unfold select_kind, has_aggregates, set_distinct, to_select, select_by, aggregate_part. cbn [s_aggregate]. destruct (g_agg cfg); [destruct (NA eq_refl)|]. split; discriminate. }
  destruct (sorted_page st outs) as (S1 & S2 & S3). rewrite Eo in S1, S3.
  eexists _, grows, _. split; [reflexivity|]. split; [exact GR|]. split; [exact S1|]. split; [rewrite <- Eo; exact S2|]. split; [intros E; split; [reflexivity|exact (S3 E)]|]. rewrite Eo. reflexivity.
Qed.
Lemma aliased_collapsed : forall a d st table ck, a <> [] -> st_items st <> [] -> free_items st -> clauses tt fn st -> by_items st -> late_limit st ->
  (exists outs, run_collapsed frepr ident ext lib str_of primary pick pick1 nested raw state_name other rematch leK d (bare st) table = Ok outs /\
                collapsed_result tt fn leK equal_keys ck (bare st) table outs) ->
  exists out, run_aliased (Some a) d st table = Ok out /\ collapsed_result tt fn leK equal_keys ck st table out.
Proof.
  intros a d st table ck NE NI FI (PW & PH & PL) O LL (outs & Ro & rows & grows & sorted & PR & GR & PS & _ & NO & Eo).
  rewrite <- no_alias_collapsed in Ro. destruct (NO eq_refl) as [-> ->]. cbn [bare st_limit st_offset paged] in Eo.
  exists (paged (st_limit st) (st_offset st) (sort (by_column st) outs)). split.
  { apply (aliased_run frepr ident ext lib str_of primary pick pick1 nested raw state_name other rematch leK a d st table outs NE); try assumption.
    - intros cfg C. apply (free_names st FI cfg C).
    - destruct LL as [LL|[LL|LL]]; auto. }
  destruct (sorted_page st outs) as (S1 & S2 & S3). rewrite Eo in S1, S3.
  eexists _, grows, _. split; [reflexivity|]. split; [exact GR|]. split; [exact S1|]. split; [rewrite <- Eo; exact S2|]. split; [intros E; split; [reflexivity|exact (S3 E)]|]. rewrite Eo. reflexivity.
Qed.
Lemma bare_body : forall st, st_items st <> [] -> free_items st -> clauses tt fn st -> collapsing_body tt fn (bare st).
Proof.
  intros st NI (ND & F) (PW & PH & PL). unfold collapsing_body. cbn [bare st_items st_where st_having st_limit]. repeat (split; [assumption|]). split; [intros n [=]|]. left. reflexivity.
Qed.
End Alias.

(** C226.  Every statement of the class [acceptable], over a table with or without alias, is accepted and returns what its kind says: plain, with aggregates,
    with GROUP BY but without aggregates, DISTINCT. *)
Theorem select_answers : forall frepr ident ext lib tt str_of primary pick pick1 nested raw state_name other rematch leK,
  ext (t "neg") = None -> total_preorder leK -> (forall a b, pyeq a b = true -> leK a b = true /\ leK b a = true) ->
  (forall rs, rs <> [] -> In (pick rs) rs) -> (forall rs, rs <> [] -> In (pick1 rs) rs) -> (forall p q, state_name p = state_name q -> p = q) ->
  let fn := sql_fn frepr ident ext lib in
  forall alias distinct st table, acceptable tt fn equal_keys (fun n => exists p, n = state_name p) alias distinct st table ->
  exists out, run_aliased frepr ident ext lib str_of primary pick pick1 nested raw state_name other rematch leK alias distinct st table = Ok out /\
              answers tt fn str_of leK equal_keys distinct st table out.
Proof.
  intros fr id ext lib tt so pr pick pick1 nested raw nm other rm leK NN TK EQ HP HP1 INJ fn alias d st table A.
  destruct A as [st table P|st table P FR SG|st table P PK|st table P PK|a st table NE FI G CL O|a st table NE PWr CL O FR SG|a st table NE NI FI G BI CL O LL PK|a st table NE NI FI G CL O LL PK].
  - destruct (plain_select fr id ext lib tt so pick nested raw nm other rm leK NN TK st table P) as (out & Ro & Re). exists out. split; [apply no_alias_statement; exact Ro|].
    destruct P as (_ & F & G & _). apply A_plain; [apply free_no_aggregates; exact F|exact G|exact Re].
  - assert (FR' : forall p m e, In (m, e) (st_items st) -> ~ mentions (nm p) e) by (intros p m e I; apply (FR _ m e); [exists p; reflexivity|exact I]).
    destruct (grouped_select fr id ext lib tt so pick nested raw nm other rm leK NN TK EQ HP INJ st table P FR' SG) as (out & Ro & Re). exists out. split; [apply no_alias_statement; exact Ro|].
    apply A_grouped; [apply written_aggregates; apply P|exact Re].
  - destruct (bare_group_select fr id ext lib tt so pr pick pick1 nested raw nm other rm leK NN TK EQ HP HP1 st table P PK) as (out & Ro & Re). exists out. split; [rewrite no_alias_collapsed; exact Ro|].
    destruct P as ((_ & _ & F & _) & G & _). apply A_bare; [apply free_no_aggregates; exact F|exact G|exact Re].
  - destruct (distinct_select fr id ext lib tt so pr pick pick1 nested raw nm other rm leK NN TK EQ HP HP1 st table P PK) as (out & Ro & Re & _). exists out. split; [rewrite no_alias_collapsed; exact Ro|].
    destruct P as ((_ & _ & F & _) & G & _). apply A_distinct; [apply free_no_aggregates; exact F|exact G|exact Re].
  - destruct (aliased_plain fr id ext lib tt NN so pr pick pick1 nested raw nm other rm leK TK a st table NE FI G CL O) as (out & Ro & Re). exists out. split; [exact Ro|].
    destruct FI as [_ F]. apply A_plain; [apply free_no_aggregates; exact F|exact G|exact Re].
  - destruct (aliased_grouped fr id ext lib tt NN so pr pick pick1 nested raw nm other rm leK TK EQ HP INJ a st table NE PWr CL O FR SG) as (out & Ro & Re). exists out. split; [exact Ro|].
    apply A_grouped; [apply written_aggregates; exact PWr|exact Re].
  - assert (P : bare_group_statement tt fn (bare st)).
    { split; [apply bare_body; assumption|]. split; [exact G|]. split; [exact BI|apply Forall_nil]. }
    destruct (aliased_collapsed fr id ext lib tt NN so pr pick pick1 nested raw nm other rm leK TK a false st table (bare_key tt fn st) NE NI FI CL O LL) as (out & Ro & Re).
    { exact (bare_group_select fr id ext lib tt so pr pick pick1 nested raw nm other rm leK NN TK EQ HP HP1 (bare st) table P PK). }
    exists out. split; [exact Ro|]. destruct FI as [_ F]. apply A_bare; [apply free_no_aggregates; exact F|exact G|exact Re].
  - assert (P : distinct_statement tt fn (bare st)).
    { split; [apply bare_body; assumption|]. split; [exact G|apply Forall_nil]. }
    destruct (aliased_collapsed fr id ext lib tt NN so pr pick pick1 nested raw nm other rm leK TK a true st table (item_values tt fn st) NE NI FI CL O LL) as (out & Ro & Re).
    { destruct (distinct_select fr id ext lib tt so pr pick pick1 nested raw nm other rm leK NN TK EQ HP HP1 (bare st) table P PK) as (outs & R1 & R2 & _). exists outs. split; [exact R1|exact R2]. }
    exists out. split; [exact Ro|]. destruct FI as [_ F]. apply A_distinct; [apply free_no_aggregates; exact F|exact G|exact Re].
Qed.
Print Assumptions select_answers.

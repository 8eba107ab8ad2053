(** A SELECT statement with window functions as a whole. *)
From Coq Require Import SpecFloat Permutation Sorting.Sorted.
From Verif Require Import Base PyVal Utils_Model Calc_Model Expr_Syntax Expr_Model Expr_Spec Expr_Proofs Expr_Props Where_Model Where_Spec Where_Proofs Where_Props
  Having_Model Having_Spec Having_Proofs Having_Props Agg_Spec Reduce_Spec Group_Syntax Group_Model Group_Spec Group_Proofs Group_Props
  Inner_Syntax Inner_Model Inner_Spec Inner_Proofs Inner_Props Select_Model Select_Spec Select_Proofs Select_Props Whole_Syntax Cast_Syntax Cast_Where Cast_Spec Cast_Proofs Whole_Model Whole_Spec Whole_Proofs Whole_Props
  Winq_Syntax Winq_Model Winq_Spec Winq_Proofs Winq_Props Winsel_Syntax Winsel_Model Winsel_Spec Winsel_Proofs.
Open Scope Z_scope.

Lemma windowed_core : forall frepr ident ext lib tt str_of leK nested wfn known other rematch,
  ext (t "neg") = None -> total_preorder leK ->
  let fn := sql_fn frepr ident ext lib in
  forall fr st table cfg, windowed_statement tt fn known st ->
  wcompile frepr ident ext known (ws_query st) = Ok cfg ->
  (forall rows, Permutation (filter (holds tt fn (ws_where st)) table) rows ->
     exists outs, run_wquery frepr ident ext lib str_of leK nested wfn cfg rows = Ok outs /\
                  shows frepr ident ext lib tt str_of leK wfn fr (ws_query st) rows outs) ->
  exists out, run_wstatement frepr ident ext lib known str_of leK nested wfn other rematch st table = Ok out /\
              windowed_result tt fn str_of leK equal_keys wfn fr st table out.
Proof.
  intros frp id ext lib tt so leK nested wfn known other rm NN TK fn fr st table cfg (PQ & (wn & wi & Iw & Cw) & PW & PH & PL & O) C Q.
  pose proof PQ as (NW & ND & PI).
  assert (ND' : NoDup (map fst (wq_items (ws_query st)))) by (apply nodup_app_l in ND; exact ND).
  assert (Ec : cfg = mkwconfig (cols_of frp id ext (ws_query st) (wq_items (ws_query st))) (finals_of frp id ext (wq_items (ws_query st)))).
  { unfold wcompile in C. rewrite (parse_windows_id _ NW) in C.
    pose proof (wcompile_items_ok frp id ext known (ws_query st) (wq_items (ws_query st)) [] eq_refl ND PI) as C'.
    change (mkwconfig (cols_of frp id ext (ws_query st) []) (finals_of frp id ext [])) with (mkwconfig [] []) in C'. rewrite C' in C. congruence. }
  set (names := map fst (s_cols cfg)).
  assert (Dir : forall n i, In (n, i) (wq_items (ws_query st)) -> direct i -> In n names).
  { intros n i I D. unfold names. rewrite Ec. cbn [s_cols]. eapply cols_direct; eassumption. }
  assert (Nam : forall n, In n names -> In n (map fst (wq_items (ws_query st))) \/ In n (hidden (wq_items (ws_query st)))).
  { intros n I. unfold names in I. rewrite Ec in I. cbn [s_cols] in I. eapply cols_names. exact I. }
  set (view := mkconfig (erase (s_cols cfg)) [] []).
  destruct (where_whole frp id ext lib tt NN view (ws_where st) PW) as (pred & R & W & WC).
  set (fake := mkstatement (map (fun n => (n, ECol n)) names) None [] (ws_having st) [] None None).
  assert (PF : plain_having fake).
  { intros e E. destruct (PH e E) as [X Y]. split; [exact X|]. intros n M. cbn [fake st_items]. rewrite map_map. cbn [fst]. rewrite map_id.
    destruct (Y n M) as (i & I & D). eapply Dir; eassumption. }
  destruct (having_whole frp id ext lib tt NN other rm fake names PF) as (hav & H & HV).
  { intros n I. cbn [fake st_items] in I. rewrite map_map in I. cbn [fst] in I. rewrite map_id in I. exact I. }
  cbn [fake st_having] in H, HV.
  set (q := to_wselect frp id ext lib rm st cfg pred hav).
  set (src := filter (fun r => source_keeps frp id ext lib r (snd (where_parts frp id ext (ws_where st)))) table).
  set (good := filter (holds tt fn (ws_where st)) table) in *.
  assert (Eq : keep (s_predicate row output q) src = good).
  { unfold src, good, q, to_wselect. cbn [s_predicate]. rewrite keep_filter. apply filter_ext. intros r. etransitivity; [|exact (W r)]. destruct pred; reflexivity. }
  assert (HK : forall l, keep (s_having row output q) l = filter (fun o => holds tt fn (ws_having st) (column o)) l).
  { intros l. unfold q, to_wselect. cbn [s_having]. apply keep_as. intros o. etransitivity; [|exact (HV o)]. destruct hav; reflexivity. }
  (* the kind *)
  assert (WN : In wn (window_names (wq_items (ws_query st)))).
  { apply window_names_in. exists wi. split; [exact Iw|]. destruct wi; try reflexivity; destruct (Cw eq_refl). }
  assert (AP : s_aggregate _ _ q = Some ([], window_names (wq_items (ws_query st)))).
  { unfold q, to_wselect, waggregate_part. cbn [s_aggregate]. destruct (window_names (wq_items (ws_query st))); [destruct WN|reflexivity]. }
  assert (HW : has_windows _ _ q = true) by (unfold has_windows; rewrite AP; destruct (window_names (wq_items (ws_query st))); [destruct WN|reflexivity]).
  assert (HA : has_aggregates _ _ q = false) by (unfold has_aggregates; rewrite AP; reflexivity).
  assert (K : select_kind _ _ q = Ok KComputed) by (unfold select_kind; rewrite HA, HW; reflexivity).
  (* columns *)
  assert (Used : forall n, In n (wcolumns frp id ext st) -> wused st n).
  { intros n I. unfold wcolumns in I. rewrite !in_app_iff in I. destruct I as [I|[I|I]].
    - left. apply in_flat_map in I as ([m i] & Ii & I). cbn [snd] in I. rewrite (parse_windows_id _ NW) in I. exists m, i. split; [exact Ii|]. apply item_columns_in. exact I.
    - right. left. exact (WC n I).
    - right. right. destruct (ws_having st) as [e|] eqn:E; [|destruct I]. destruct (PH e eq_refl) as [X _]. destruct (having_columns_in n e X I) as (x & A1 & A2 & M). exists e, x. auto. }
  assert (ColKnown : forall n, In (n, WCol n) (wq_items (ws_query st)) -> In n (wcolumns frp id ext st)).
  { intros n I. unfold wcolumns. apply in_app_iff. left. apply in_flat_map. exists (n, WCol n). split; [exact I|]. left. reflexivity. }
  (* ORDER BY *)
  assert (Push : forall n, pushed _ _ q [] n = true <-> ~ In n (window_names (wq_items (ws_query st))) /\ (In n (wcolumns frp id ext st) \/ ~ In n names)).
  { intros n. unfold pushed, has_alias. rewrite AP. unfold q, to_wselect. cbn [s_schema s_columns s_alias s_table]. fold names. cbn [memb existsb negb andb]. fold (memb n (window_names (wq_items (ws_query st)))).
    rewrite <- (memb_In n (window_names _)), <- (memb_In n (wcolumns _ _ _ _)), <- (memb_In n names).
    destruct (memb n (window_names (wq_items (ws_query st)))), (memb n (wcolumns frp id ext st)), (memb n names); cbn [negb orb]; intuition congruence. }
  assert (OC : exists op, compile_order _ _ q = Ok op).
  { apply order_ok. exists names. split; [reflexivity|]. destruct O as [O|O]; [left|right]; intros it I;
      unfold q, to_wselect in I; cbn [s_order] in I; apply in_map_iff in I as ([n d] & <- & I); exists n, d; (split; [reflexivity|]); rewrite Forall_forall in O; specialize (O _ I); cbn [fst] in O.
    - destruct O as (i & J & D & _). eapply Dir; eassumption.
    - apply Push. destruct O as [O1 O2]. split.
      + intros J. apply window_names_in in J as (i & J & Wi). rewrite (O1 i J) in Wi. discriminate Wi.
      + destruct (in_dec text_eq_dec n names) as [J|J]; [left|right; exact J]. apply Nam in J as [J|J]; [|destruct (O2 J)].
        apply in_map_iff in J as ([m i] & Em & J). cbn [fst] in Em. subst m. apply ColKnown. rewrite <- (O1 i J). exact J. }
  destruct OC as ([o p] & OC).
  set (rows := keep (s_predicate _ _ q) (sort (le_by val leK (fun n r => r n) o) src)).
  assert (PR : Permutation good rows).
  { rewrite <- Eq. unfold rows. pose proof (sort_perm _ (le_by val leK (fun n (r : row) => r n) o) src) as Z. destruct (s_predicate row output q); cbn [keep]; [apply filter_perm|]; exact Z. }
  destruct (Q rows PR) as (outs & RQ & cols & PC & F).
  change (Forall2 (shows_row tt fn so leK equal_keys wfn fr (ws_query st) cols rows) (numbered rows) outs) in F.
  (* as a [run_select] *)
  set (agg := fun l => match run_wquery frp id ext lib so leK nested wfn cfg l with Ok x => x | Err _ => [] end).
  assert (CS : exists k, compile_select _ _ q = Ok k /\ t_kind k = KComputed /\ t_predicate k = s_predicate _ _ q /\ t_orders k = o).
  { unfold compile_select. rewrite OC. cbn [bind snd fst]. destruct (compile_limit _ _ q p) as [p' l']. rewrite K. cbn [bind]. eexists. split; [reflexivity|repeat split]. }
  assert (Run : run_wstatement frp id ext lib known so leK nested wfn other rm st table =
     run_select row output val leK (fun n r => r n) field (fun _ => []) agg (fun _ => []) (fun _ => []) q src).
  { unfold run_wstatement, compile_wstatement. rewrite C. cbn [bind]. fold view names. rewrite R. cbn [bind]. rewrite H. cbn [bind].
    change (to_wselect frp id ext lib rm st cfg pred hav) with q.
    destruct CS as (k & Ck & Kk & Kp & Ko). unfold run_select. rewrite Ck. cbn [bind p_task p_config]. rewrite Kk.
    assert (L : loaded frp id ext lib leK (mkplan view (snd (where_parts frp id ext (ws_where st))) k) table = rows).
    { unfold loaded. cbn [p_task p_querys]. fold src. rewrite Kp, Ko, (windows_no_limit q k Ck HW). reflexivity. }
    rewrite L, RQ. cbn [bind]. unfold run_task. rewrite Kk, Kp, Ko, (windows_no_limit q k Ck HW). cbn [compute]. change (take 0 ?l) with l.
    change (keep (s_predicate row output q) (sort (le_by val leK (fun n r => r n) o) src)) with rows.
    unfold agg. rewrite RQ. reflexivity. }
  assert (NC : collapses q = false) by (unfold collapses; rewrite HA; reflexivity).
  rewrite Run, whole_limit by (exact NC || exact PL).
  assert (RL : run_select row output val leK (fun n r => r n) field (fun _ => []) agg (fun _ => []) (fun _ => []) (with_limit q None None) src =
     Ok (fold_left (apply_pipeline output val leK field) p (keep (s_having _ _ q) outs))).
  { unfold run_select, compile_select. rewrite order_with_limit, OC. cbn [bind snd fst]. unfold compile_limit. cbn [s_limit s_offset with_limit]. change (negb (0 =? 0) || (0 <? 0))%bool with false. cbv iota zeta.
    change (select_kind row output (with_limit q None None)) with (select_kind row output q). rewrite K. cbn [bind]. unfold run_task. cbn [t_pipelines t_having t_kind t_predicate t_limit t_orders compute].
    change (take 0 ?l) with l. change (s_predicate row output (with_limit q None None)) with (s_predicate row output q).
    change (keep (s_predicate row output q) (sort (le_by val leK (fun n r => r n) o) src)) with rows.
    unfold agg. rewrite RQ. reflexivity. }
  rewrite RL. cbn [bind]. eexists. split; [reflexivity|]. rewrite HK.
  assert (Len : length rows = length outs).
  { pose proof (Forall2_len _ _ _ _ _ F) as E. rewrite <- E. transitivity (length (map fst (numbered rows))); [rewrite numbered_fst; symmetry; apply seq_length|apply map_length]. }
  set (pairs := filter (fun p : row * output => holds tt fn (ws_having st) (column (snd p))) (combine rows outs)).
  assert (SP : filter (fun o => holds tt fn (ws_having st) (column o)) outs = map snd pairs).
  { unfold pairs. rewrite <- (combine_snd _ _ rows outs Len) at 1. apply filter_snd. }
  rewrite SP.
  set (pv := fun n (x : row * output) => pair_value (ws_query st) n x).
  (* on a pair, a column shown under its own name has the value of the table *)
  assert (Col : forall n x, In x (combine rows outs) -> In (n, WCol n) (wq_items (ws_query st)) -> column (snd x) n = fst x n).
  { intros n x I J. destruct (pair_shown _ _ _ x F I) as (i & Sx).
    assert (NDc : NoDup (map fst cols)) by (eapply Permutation_NoDup; [apply Permutation_map; exact PC|exact ND']).
    assert (Jc : In (n, WCol n) cols) by (eapply Permutation_in; eassumption).
    pose proof (shown_field _ cols (snd x) n (WCol n) NDc Jc Sx) as V. inversion V. reflexivity. }
  assert (IsItem : forall n, existsb (text_eqb n) (map fst (wq_items (ws_query st))) = true <-> exists i, In (n, i) (wq_items (ws_query st))).
  { intros n. rewrite existsb_exists. split.
    - intros (m & I & E). apply text_eqb_spec in E. subst m. apply in_map_iff in I as ([m i] & <- & I). exists i. exact I.
    - intros (i & I). exists n. split; [apply (in_map fst) in I; exact I|apply text_eqb_refl]. }
  set (key := fun it (r : row) => match it with OCol _ n _ => r n | OExp _ _ _ => VNone end).
  set (key_out := fun it (x : output) => match it with OCol _ n _ => field n x | OExp _ _ _ => VNone end).
  assert (Exps : forall sql lsql d, ~ In (OExp sql lsql d) (s_order _ _ q)).
  { intros sql lsql d I. unfold q, to_wselect in I. cbn [s_order] in I. apply in_map_iff in I as (? & E & _). discriminate E. }
  assert (None_ : ws_order st = [] -> o = [] /\ p = []).
  { intros E. unfold compile_order, q, to_wselect in OC. cbn [s_order] in OC. rewrite E in OC. cbn in OC. injection OC as <- <-. split; reflexivity. }
  assert (InP : forall x, In x pairs -> In x (combine rows outs)) by (intros x I; apply filter_In in I; apply I).
  destruct (order_cases row output val leK (fun n r => r n) field (fun _ => []) agg (fun _ => []) (fun _ => []) key output q field key_out o p OC) as [[-> Le]|(ks & k' & -> & Lo & _)].
  - intros tb n d _ _ r. reflexivity.
  - intros schema _. split; [intros tb n d _ _ x; reflexivity|intros sql lsql d I; destruct (Exps _ _ _ I)].
  - (* sorted by the source *)
    cbn [fold_left]. exists rows, cols, outs, pairs. split; [exact PR|]. split; [exact PC|]. split; [exact F|]. cbv zeta. split; [apply Permutation_refl|]. split; [|split; [|reflexivity]].
    + assert (SF : StronglySorted (fun x y => order_le val leK key (s_order _ _ q) x y = true) rows).
      { unfold rows. rewrite (sort_ext _ _ (order_le val leK key (s_order _ _ q)) _ Le).
        assert (S0 : StronglySorted (fun x y => order_le val leK key (s_order _ _ q) x y = true) (sort (order_le val leK key (s_order _ _ q)) src)) by (apply sort_sorted, order_le_total; exact TK).
        destruct (s_predicate _ _ q); cbn [keep]; [eapply sublist_sorted; [apply sublist_filter|exact S0]|exact S0]. }
      rewrite <- (combine_fst _ _ rows outs Len) in SF. apply sorted_map in SF.
      apply (sublist_sorted _ _ pairs _ (sublist_filter _ _ _)). eapply sorted_weaken_in; [|exact SF]. cbn beta. intros x y Ix Iy L. rewrite <- L.
      unfold order_le, q, to_wselect. cbn [s_order]. rewrite map_map. cbn [descending]. symmetry.
      apply (lex_le_ext_at _ _ val leK (ws_order st) (fun n (r : row) => r n) (fun n x => pair_value (ws_query st) n x)).
      intros n d In_. assert (Pn : pushed _ _ q [] n = true).
      { apply (order_pushed q o OC [] n d). unfold q, to_wselect. cbn [s_order]. apply in_map_iff. exists (n, d). split; [reflexivity|exact In_]. }
      apply Push in Pn as [Pn1 Pn2].
      assert (V : forall z, In z (combine rows outs) -> fst z n = pair_value (ws_query st) n z).
      { intros z Iz. unfold pair_value. destruct (existsb (text_eqb n) (map fst (wq_items (ws_query st)))) eqn:Ex; [|reflexivity]. apply IsItem in Ex as (i & J).
        assert (In (n, WCol n) (wq_items (ws_query st))) as Jn.
        { destruct O as [O|O]; rewrite Forall_forall in O; specialize (O _ In_); cbn [fst] in O.
          - destruct O as (i' & J' & D & [->|[(c & ->)|U]]); [exact J'| |].
            + exfalso. apply Pn1. apply window_names_in. exists (WWin c). split; [exact J'|reflexivity].
            + exfalso. destruct Pn2 as [Pn2|Pn2]; [apply U, Used, Pn2|exact (Pn2 (Dir n i' J' D))].
          - rewrite <- (proj1 O i J). exact J. }
        symmetry. apply Col; assumption. }
      split; apply V; assumption.
    + intros E0. destruct (None_ E0) as [-> _]. split; [|reflexivity]. unfold rows. etransitivity; [|exact Eq]. f_equal.
      generalize src. intros l. clear. induction l as [|x l IH]; [reflexivity|]. unfold sort in *. cbn [fold_right]. rewrite IH. destruct l; reflexivity.
  - (* sorted after the computation *)
    cbn [fold_left apply_pipeline]. rewrite (sort_ext _ _ _ _ Lo), sort_map.
    set (le2 := fun x y : row * output => order_le val leK key_out (s_order _ _ q) (snd x) (snd y)).
    exists rows, cols, outs, (sort le2 pairs). split; [exact PR|]. split; [exact PC|]. split; [exact F|]. cbv zeta. split; [apply sort_perm|]. split; [|split; [|reflexivity]].
    + assert (T2 : total_preorder le2).
      { pose proof (order_le_total val leK TK output key_out (s_order _ _ q)) as [T1 T2]. split; [intros x y; apply T1|intros x y z; apply T2]. }
      pose proof (sort_sorted _ le2 T2 pairs) as S0. eapply sorted_weaken_in; [|exact S0]. cbn beta. intros x y Ix Iy L. rewrite <- L.
      unfold le2, order_le, q, to_wselect. cbn [s_order]. rewrite map_map. cbn [descending]. symmetry.
      apply (lex_le_ext_at _ _ val leK (ws_order st) (fun n (x : output) => field n x) (fun n x => pair_value (ws_query st) n x)).
      intros n d In_.
      assert (Inn : In n (map fst (wq_items (ws_query st)))).
      { assert (J : In n names).
        { apply (order_in_schema q names o ks OC eq_refl [] n d). unfold q, to_wselect. cbn [s_order]. apply in_map_iff. exists (n, d). split; [reflexivity|exact In_]. }
        destruct O as [O|O]; rewrite Forall_forall in O; specialize (O _ In_); cbn [fst] in O.
        - destruct O as (i & J' & _). apply (in_map fst) in J'. exact J'.
        - apply Nam in J as [J|J]; [exact J|destruct (proj2 O J)]. }
      assert (Ex : existsb (text_eqb n) (map fst (wq_items (ws_query st))) = true) by (apply existsb_exists; exists n; split; [exact Inn|apply text_eqb_refl]).
      unfold pair_value. rewrite Ex. split; reflexivity.
    + intros E0. destruct (None_ E0) as [_ X]. discriminate X.
Qed.

(** Every statement of the class [windowed_statement] is accepted, and its result is that of [windowed_result], an aggregate with ORDER BY being taken over the rows
    of the partition up to the current one. *)
Theorem windowed_select_rows : forall frepr ident ext lib tt str_of leK nested wfn known other rematch,
  ext (t "neg") = None -> total_preorder leK ->
  let fn := sql_fn frepr ident ext lib in
  forall st table, windowed_statement tt fn known st ->
  (forall rows, Permutation (filter (holds tt fn (ws_where st)) table) rows -> rows_fit frepr ident ext lib tt leK rows_frame (ws_query st) rows) ->
  exists out, run_wstatement frepr ident ext lib known str_of leK nested wfn other rematch st table = Ok out /\
              windowed_result tt fn str_of leK equal_keys wfn rows_frame st table out.
Proof.
  intros frp id ext lib tt so leK nested wfn known other rm NN TK fn st table P RF.
  destruct (window_query_rows frp id ext lib tt so leK nested wfn known NN TK (ws_query st) (proj1 P)) as (cfg & C & H).
  apply (windowed_core frp id ext lib tt so leK nested wfn known other rm NN TK rows_frame st table cfg P C).
  intros rows PR. apply H, RF, PR.
Qed.
(** Without ties, the aggregates are those of SQL. *)
Theorem windowed_select : forall frepr ident ext lib tt str_of leK nested wfn known other rematch,
  ext (t "neg") = None -> total_preorder leK ->
  let fn := sql_fn frepr ident ext lib in
  forall st table, windowed_statement tt fn known st ->
  (forall rows, Permutation (filter (holds tt fn (ws_where st)) table) rows ->
     rows_fit frepr ident ext lib tt leK sql_frame (ws_query st) rows /\ no_ties frepr ident ext lib tt leK (ws_query st) rows) ->
  exists out, run_wstatement frepr ident ext lib known str_of leK nested wfn other rematch st table = Ok out /\
              windowed_result tt fn str_of leK equal_keys wfn sql_frame st table out.
Proof.
  intros frp id ext lib tt so leK nested wfn known other rm NN TK fn st table P RF.
  destruct (window_query_correct frp id ext lib tt so leK nested wfn known NN TK (ws_query st) (proj1 P)) as (cfg & C & H).
  apply (windowed_core frp id ext lib tt so leK nested wfn known other rm NN TK sql_frame st table cfg P C).
  intros rows PR. destruct (RF rows PR) as [R1 R2]. apply H; assumption.
Qed.
Print Assumptions windowed_select_rows.
Print Assumptions windowed_select.

(** An expression around window functions cannot be named in ORDER BY: the statement is refused. *)
Theorem order_by_window_expression_refused : forall frepr ident ext lib str_of leK nested wfn known other rematch st table n e holes d,
  plain_wquery known (ws_query st) -> In (n, WExpr e holes) (wq_items (ws_query st)) -> In (n, d) (ws_order st) ->
  forall out, run_wstatement frepr ident ext lib known str_of leK nested wfn other rematch st table <> Ok out.
Proof.
  intros frp id ext lib so leK nested wfn known other rm st table n e holes d PQ I J out R. pose proof PQ as (NW & ND & PI).
  unfold run_wstatement, compile_wstatement in R. destruct (wcompile frp id ext known (ws_query st)) as [cfg|] eqn:C; [|discriminate R]. cbn [bind] in R.
  assert (Ec : cfg = mkwconfig (cols_of frp id ext (ws_query st) (wq_items (ws_query st))) (finals_of frp id ext (wq_items (ws_query st)))).
  { unfold wcompile in C. rewrite (parse_windows_id _ NW) in C.
    pose proof (wcompile_items_ok frp id ext known (ws_query st) (wq_items (ws_query st)) [] eq_refl ND PI) as C'.
    change (mkwconfig (cols_of frp id ext (ws_query st) []) (finals_of frp id ext [])) with (mkwconfig [] []) in C'. rewrite C' in C. congruence. }
  destruct (residual frp id ext _ _) as [pred|]; [|discriminate R]. cbn [bind] in R.
  destruct (match ws_having st with Some _ => _ | None => _ end) as [hav|]; [|discriminate R]. cbn [bind] in R.
  set (q := to_wselect frp id ext lib rm st cfg pred hav) in *.
  unfold compile_select in R. destruct (compile_order row output q) as [[o p]|] eqn:OC; [|discriminate R]. clear R.
  assert (Io : In (OCol [] n d) (s_order _ _ q)) by (unfold q, to_wselect; cbn [s_order]; apply in_map_iff; exists (n, d); split; [reflexivity|exact J]).
  assert (WN : In n (window_names (wq_items (ws_query st)))) by (apply window_names_in; exists (WExpr e holes); split; [exact I|reflexivity]).
  destruct (order_shape row output q o p OC) as [->|(ks & ->)].
  - pose proof (order_pushed q o OC [] n d Io) as P. unfold pushed in P. unfold q, to_wselect, waggregate_part in P. cbn [s_schema s_aggregate s_table] in P.
    destruct (window_names (wq_items (ws_query st))) as [|w1 wl] eqn:Ew; [destruct WN|]. apply memb_In in WN. rewrite WN in P. rewrite andb_false_r in P. discriminate P.
  - pose proof (order_in_schema q (map fst (s_cols cfg)) o ks OC eq_refl [] n d Io) as K. rewrite Ec in K. cbn [s_cols] in K.
    apply in_map_iff in K as ([m c] & Em & K). cbn [fst] in Em. subst m. unfold cols_of in K. apply in_flat_map in K as ([a i] & Ia & K). cbn [fst snd] in K.
    assert (Same : forall x, [(a, x)] = [(n, c)] -> i = WExpr e holes).
    { intros x E. assert (a = n) as -> by congruence. apply nodup_app_l in ND.
      pose proof (assoc_nodup _ n _ _ ND Ia) as A1. pose proof (assoc_nodup _ n _ _ ND I) as A2. congruence. }
    destruct i as [v|m|e'|k|e' h']; try (destruct K as [K|[]]; specialize (Same _ (f_equal (fun x => [x]) K)); discriminate Same).
    apply in_map_iff in K as (h & Eh & Ih). apply (nodup_app_disjoint _ _ _ n ND).
    + apply (in_map fst) in I. exact I.
    + unfold hidden. apply in_flat_map. exists (a, WExpr e' h'). split; [exact Ia|]. cbn [snd wholes]. assert (fst h = n) as <- by (unfold hcol in Eh; congruence). apply in_map. exact Ih.
Qed.
Print Assumptions order_by_window_expression_refused.

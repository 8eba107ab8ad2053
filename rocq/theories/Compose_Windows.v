(** C242: SELECTs with window functions over a source with an alias. *)
From Coq Require Import SpecFloat Permutation Sorting.Sorted.
From Verif Require Import Base PyVal Utils_Model Calc_Model Expr_Syntax Expr_Model Expr_Spec Expr_Proofs Expr_Props Where_Model Where_Spec Where_Proofs Where_Props
  Having_Model Having_Spec Having_Proofs Having_Props Agg_Spec Reduce_Spec Group_Syntax Group_Model Group_Spec Group_Proofs Group_Props
  Inner_Syntax Inner_Model Inner_Spec Inner_Proofs Inner_Props Select_Model Select_Spec Select_Proofs Select_Props Whole_Syntax Cast_Syntax Cast_Where Cast_Spec Cast_Proofs Whole_Model Whole_Spec Whole_Proofs Whole_Props
  Alias_Model Alias_Proofs Winq_Syntax Winq_Model Winq_Spec Winq_Proofs Winq_Props Winsel_Syntax Winsel_Model Winsel_Spec Winsel_Proofs Winsel_Props Compose_Model.
Open Scope Z_scope.

Section Windows.
Variable frepr : spec_float -> text.
Variable ident : val -> val -> bool.
Variable ext : text -> option (list val -> val).
Variable lib : text -> list val -> val.
Variable tt : text -> bool.
Variable known : text -> bool.
Variable str_of : val -> text.
Variable nested : text -> row -> val.
Variable other : expr -> res Having_Model.hcol.
Variable rematch : text -> val -> bool.
Variable leK : val -> val -> bool.
Variable wfn : text -> list (list val * list val) -> nat -> val.
Hypothesis NN : ext (t "neg") = None.
Hypothesis TK : total_preorder leK.
Notation fn := (sql_fn frepr ident ext lib).
Notation run_waliased := (run_waliased frepr ident ext lib known str_of nested other rematch leK wfn).
Notation run_wstatement := (run_wstatement frepr ident ext lib known str_of leK nested wfn other rematch).

Lemma waliased_none : forall st table, run_waliased None st table = run_wstatement st table.
Proof. reflexivity. Qed.

(** The statement without ORDER BY and LIMIT. *)
Definition wbare (st : wstatement) : wstatement := mkwstatement (ws_query st) (ws_where st) (ws_having st) [] None None.
Lemma plain_config : forall q, plain_wquery known q -> wcompile frepr ident ext known q = Ok (mkwconfig (cols_of frepr ident ext q (wq_items q)) (finals_of frepr ident ext (wq_items q))).
Proof.
  intros q (NW & ND & PI). unfold wcompile. rewrite (parse_windows_id _ NW). exact (wcompile_items_ok frepr ident ext known q (wq_items q) [] eq_refl ND PI).
Qed.

(** The statement without ORDER BY and LIMIT gives [outs]; with the alias, ORDER BY and LIMIT it gives their page once sorted. *)
Lemma waliased_run : forall a st table outs, a <> [] -> plain_wquery known (ws_query st) -> (exists n i, In (n, i) (wq_items (ws_query st)) /\ wcalls i <> []) ->
  Forall (fun nd => exists i, In (fst nd, i) (wq_items (ws_query st)) /\ direct i) (ws_order st) -> plain_limit (ws_limit st) ->
  run_wstatement (wbare st) table = Ok outs ->
  run_waliased (Some a) st table =
    Ok (paged (ws_limit st) (ws_offset st) (sort (lex_le leK (map (fun nd => ((fun o => column o (fst nd)), snd nd)) (ws_order st))) outs)).
Proof.
  intros a st table outs NE PQ (wn & wi & Iw & Cw) O PL. unfold Compose_Model.run_waliased, Winsel_Model.run_wstatement, compile_waliased, compile_wstatement. cbv zeta. cbn [ws_query ws_where ws_having wbare].
  rewrite (plain_config _ PQ). set (cfg := mkwconfig _ _). cbn [bind]. set (view := mkconfig (erase (s_cols cfg)) [] []).
  destruct (residual _ _ _ view _) as [pred|]; [|discriminate]. cbn [bind].
  destruct (match ws_having st with None => _ | Some _ => _ end) as [hav|] eqn:Hh; [|discriminate]. cbn [bind].
  set (q0' := to_wselect frepr ident ext lib rematch (wbare st) cfg pred hav). set (q' := set_alias (Some a) (to_wselect frepr ident ext lib rematch st cfg pred hav)).
  assert (K : select_kind row output q' = select_kind row output q0') by reflexivity.
  assert (WN : In wn (window_names (wq_items (ws_query st)))).
  { apply window_names_in. exists wi. split; [exact Iw|]. destruct wi; try reflexivity; destruct (Cw eq_refl). }
  assert (HW : has_windows _ _ q' = true).
  { unfold has_windows, q', to_wselect, waggregate_part. cbn [set_alias s_aggregate]. destruct (window_names (wq_items (ws_query st))); [destruct WN|reflexivity]. }
  assert (In_schema : Forall (fun nd => In (fst nd) (map fst (s_cols cfg))) (ws_order st)).
  { eapply Forall_impl; [|exact O]. intros nd (i & I & D). eapply cols_direct; eassumption. }
  assert (Un : Forall (fun nd => pushed row output q' [] (fst nd) = false) (ws_order st)).
  { eapply Forall_impl; [|exact In_schema]. intros nd I. unfold pushed, q', to_wselect, has_alias. cbn [set_alias s_schema s_table s_aggregate s_columns s_alias].
    apply memb_In in I. rewrite I. cbn [negb]. rewrite andb_false_r. destruct a; [congruence|]. destruct (waggregate_part st) as [[x y]|]; [|reflexivity]. destruct (_ && _); reflexivity. }
  assert (C0 : compile_select row output q0' = do k <- select_kind row output q0'; Ok (mktask (s_predicate _ _ q') k (s_having _ _ q') [] 0 [])) by reflexivity.
  rewrite C0. destruct (select_kind row output q0') as [k|] eqn:K0; [|discriminate]. cbn [bind p_config p_task t_kind t_pipelines t_having fold_left].
  set (src := filter (fun r => source_keeps frepr ident ext lib r (snd (where_parts frepr ident ext (ws_where st)))) table).
  assert (LD : forall v pr k' h ps l, loaded frepr ident ext lib leK (mkplan v (snd (where_parts frepr ident ext (ws_where st))) (mktask pr k' h [] l ps)) table = keep pr (take l src)).
  { intros v pr k' h ps l. unfold loaded. cbn [p_task p_querys t_predicate t_limit t_orders]. rewrite insert_true by reflexivity. reflexivity. }
  rewrite LD. change (take 0 src) with src.
  destruct (match k with KPlain | KComputed => run_wquery frepr ident ext lib str_of leK nested wfn cfg (keep (s_predicate row output q') src) | _ => Err OtherError end) as [outs0|] eqn:KR; [|discriminate].
  cbn [bind]. intros R. apply Calc_Proofs.Ok_inj in R. subst outs.
  (* ORDER BY *)
  assert (OC : compile_order row output q' = Ok ([], match ws_order st with [] => [] | l => [PSort l] end)).
  { unfold compile_order. change (s_order row output q') with (map (fun nd : text * bool => OCol [] (fst nd) (snd nd)) (ws_order st)). rewrite order_keys_unpushed by exact Un. cbn [bind]. cbv zeta.
    assert (F0 : filter snd (map (fun nd : text * bool => (nd, false)) (ws_order st)) = []) by (generalize (ws_order st); intros l; induction l as [|x l IH]; [reflexivity|exact IH]).
    rewrite F0. rewrite map_map. cbn [fst]. rewrite map_id. cbn [map length].
    destruct (ws_order st) as [|x l]; [reflexivity|]. cbn [length Nat.ltb Nat.leb]. change (s_schema row output q') with (Some (map fst (s_cols cfg))).
    assert (FB : forallb (fun k : text * bool => memb (fst k) (map fst (s_cols cfg))) (x :: l) = true).
    { apply forallb_forall. intros y Iy. apply memb_In. rewrite Forall_forall in In_schema. exact (In_schema y Iy). }
    cbv iota beta. rewrite FB. reflexivity. }
  unfold compile_select. rewrite OC. cbn [bind snd fst].
  set (le := lex_le leK (map (fun nd : text * bool => ((fun o : list (text * val) => column o (fst nd)), snd nd)) (ws_order st))).
  set (ps := match ws_order st with [] => [] | l => [PSort l] end).
  assert (SP : forall l, fold_left (apply_pipeline output val leK field) ps l = sort le l).
  { intros l. unfold ps, le. destruct (ws_order st) as [|x r]; [cbn [fold_left map]; rewrite insert_true by reflexivity; reflexivity|]. cbn [fold_left apply_pipeline].
    apply sort_ext. intros u v. rewrite le_by_lex. reflexivity. }
  destruct (compile_limit row output q' ps) as [p l] eqn:CL. rewrite K. cbn [bind p_config p_task t_kind t_pipelines t_having].
  rewrite LD.
  (* LIMIT and OFFSET *)
  unfold compile_limit in CL. change (s_offset row output q') with (ws_offset st) in CL. change (s_limit row output q') with (ws_limit st) in CL. cbv zeta in CL. rewrite HW in CL.
  set (ov := match ws_offset st with Some o => Z.max o 0 | None => 0 end) in *.
  assert (Hov : 0 <= ov) by (unfold ov; destruct (ws_offset st); lia).
  assert (Pg : forall A (l : list A), paged (ws_limit st) (ws_offset st) l = match ws_limit st with Some n => firstn (Z.to_nat n) (skipn (Z.to_nat ov) l) | None => skipn (Z.to_nat ov) l end).
  { intros A l0. unfold paged, ov. destruct (ws_offset st) as [o|]; [|reflexivity]. replace (Z.to_nat (Z.max o 0)) with (Z.to_nat o) by lia. reflexivity. }
  rewrite Pg. destruct (ws_limit st) as [n|] eqn:EL.
  - pose proof (PL n eq_refl) as Hn. replace (n =? 0) with false in CL by (symmetry; apply Z.eqb_neq; lia). replace (0 <? n) with true in CL by (symmetry; apply Z.ltb_lt; lia).
    replace (n <=? 0) with false in CL by (symmetry; apply Z.leb_gt; lia). cbn [negb orb] in CL. rewrite ?orb_true_r in CL. cbn [orb] in CL.
    injection CL as <- <-. change (take 0 src) with src. rewrite KR. cbn [bind]. rewrite fold_left_app, SP. cbn [fold_left apply_pipeline]. rewrite pyslice_page by lia. reflexivity.
  - change (0 =? 0) with true in CL. cbn [negb orb] in CL. destruct (0 <? ov) eqn:B.
    + change (0 <=? 0) with true in CL. rewrite ?orb_true_r in CL. injection CL as <- <-. change (take 0 src) with src. rewrite KR. cbn [bind]. rewrite fold_left_app, SP. cbn [fold_left apply_pipeline]. rewrite pyslice_skip by lia. reflexivity.
    + injection CL as <- <-. change (take 0 src) with src. rewrite KR. cbn [bind]. rewrite SP. apply Z.ltb_ge in B. replace ov with 0 by lia. reflexivity.
Qed.

(** ** The result *)
Lemma aliased_result : forall fr st table outs, windowed_result tt fn str_of leK equal_keys wfn fr (wbare st) table outs ->
  Forall (fun nd => exists i, In (fst nd, i) (wq_items (ws_query st)) /\ direct i) (ws_order st) ->
  windowed_result tt fn str_of leK equal_keys wfn fr st table
    (paged (ws_limit st) (ws_offset st) (sort (lex_le leK (map (fun nd => ((fun o => column o (fst nd)), snd nd)) (ws_order st))) outs)).
Proof.
  intros fr st table outs (rows & cols & outs0 & sorted & PR & PC & F & PS & _ & Same & ->) O. cbn [ws_query ws_where ws_having ws_order ws_limit ws_offset wbare] in *.
  destruct (Same eq_refl) as [Er Es]. clear Same.
  set (pairs := filter (fun p : row * output => holds tt fn (ws_having st) (column (snd p))) (combine rows outs0)) in *. subst sorted.
  set (le := lex_le leK (map (fun nd : text * bool => ((fun o : list (text * val) => column o (fst nd)), snd nd)) (ws_order st))).
  set (le2 := fun x y : row * output => le (snd x) (snd y)).
  exists rows, cols, outs0, (sort le2 pairs). split; [exact PR|]. split; [exact PC|]. split; [exact F|]. cbv zeta. fold pairs. split; [apply sort_perm|]. split; [|split].
  - assert (T2 : total_preorder le2).
    { assert (TL : total_preorder le) by (apply lex_total; exact TK). destruct TL as [T1 T2]. split; [intros x y; apply T1|intros x y z; apply T2]. }
    pose proof (sort_sorted _ le2 T2 pairs) as S0. eapply sorted_weaken_in; [|exact S0]. cbn beta. intros x y Ix Iy L. rewrite <- L. unfold le2, le.
    clear - O. induction O as [|[n b] l (i & I & _) O IH]; [reflexivity|]. cbn [map lex_le fst snd] in *. rewrite IH.
    assert (Ex : existsb (text_eqb n) (map fst (wq_items (ws_query st))) = true) by (apply existsb_exists; exists n; split; [apply (in_map fst) in I; exact I|apply text_eqb_refl]).
    unfold pair_value. rewrite Ex. reflexivity.
  - intros E0. split; [exact Er|]. unfold le2, le. rewrite E0. cbn [map]. apply insert_true. reflexivity.
  - cbn [paged]. f_equal. change (fun x y : row * output => le (snd x) (snd y)) with le2. unfold le2. rewrite <- sort_map. reflexivity.
Qed.

(** ** The columns *)
Lemma pipelines_incl : forall ps (l : list output) o, In o (fold_left (apply_pipeline output val leK field) ps l) -> In o l.
Proof.
  induction ps as [|p ps IH]; intros l o I; [exact I|]. cbn [fold_left] in I. apply IH in I. destruct p as [keys|a b]; cbn [apply_pipeline] in I.
  - eapply Permutation_in; [apply Permutation_sym, sort_perm|exact I].
  - unfold pyslice in I. revert I. generalize (match b with None => length l | Some b0 => clampidx (Z.of_nat (length l)) b0 end - clampidx (Z.of_nat (length l)) a)%nat. generalize (clampidx (Z.of_nat (length l)) a). intros i j I.
    assert (S : forall n (m : list output), In o (skipn n m) -> In o m).
    { intros n. induction n as [|n IHn]; intros [|y m] J; try exact J. right. exact (IHn m J). }
    assert (G : forall n (m : list output), In o (firstn n m) -> In o m).
    { intros n. induction n as [|n IHn]; intros [|y m] J; cbn in J; try destruct J as [J|J]; try (destruct J; fail); [left; exact J|right; exact (IHn m J)]. }
    eauto.
Qed.
Lemma wfirst_names : forall rows c cols cs, wfirst_row frepr ident ext lib str_of leK nested wfn rows c cols = Ok cs -> map fst cs = map fst cols.
Proof.
  intros rows c. induction cols as [|[n [p|w]] cols IH]; intros cs E; cbn [wfirst_row] in E.
  - apply Calc_Proofs.Ok_inj in E. subst cs. reflexivity.
  - destruct (wfirst_row _ _ _ _ _ _ _ _ rows c cols) as [cs1|]; [|discriminate]. cbn [bind] in E. apply Calc_Proofs.Ok_inj in E. subst cs. cbn [map fst]. rewrite (IH cs1 eq_refl). reflexivity.
  - destruct (win_value _ _ _ _ _ _ _ _ rows c w) as [v|]; [|discriminate]. cbn [bind] in E.
    destruct (wfirst_row _ _ _ _ _ _ _ _ rows c cols) as [cs1|]; [|discriminate]. cbn [bind] in E. apply Calc_Proofs.Ok_inj in E. subst cs. cbn [map fst]. rewrite (IH cs1 eq_refl). reflexivity.
Qed.
Lemma mapm_in : forall A B (f : A -> res B) l m y, mapm f l = Ok m -> In y m -> exists x, f x = Ok y.
Proof.
  intros A B f. induction l as [|x l IH]; intros m y E I; cbn [mapm] in E; [apply Calc_Proofs.Ok_inj in E; subst m; destruct I|].
  destruct (f x) as [z|] eqn:Ez; [|discriminate]. cbn [bind] in E. destruct (mapm f l) as [m1|]; [|discriminate]. cbn [bind] in E. apply Calc_Proofs.Ok_inj in E. subst m.
  destruct I as [<-|I]; [exists x; exact Ez|exact (IH m1 y eq_refl I)].
Qed.
Lemma waliased_names : forall a st table out, plain_wquery known (ws_query st) -> Forall (fun ai => direct (snd ai)) (wq_items (ws_query st)) ->
  run_waliased a st table = Ok out -> forall o, In o out -> map fst o = map fst (wq_items (ws_query st)).
Proof.
  intros a st table out PQ D R o I. unfold Compose_Model.run_waliased, compile_waliased in R. rewrite (plain_config _ PQ) in R. set (cfg := mkwconfig _ _) in R. cbn [bind] in R. cbv zeta in R.
  destruct (residual _ _ _ _ _) as [pred|]; [|discriminate]. cbn [bind] in R. destruct (match ws_having st with None => _ | Some _ => _ end) as [hav|]; [|discriminate]. cbn [bind] in R.
  destruct (compile_select _ _ _) as [k|]; [|discriminate]. cbn [bind p_task] in R.
  destruct (match t_kind k with KPlain | KComputed => _ | _ => _ end) as [outs|] eqn:Ro; [|discriminate]. cbn [bind] in R. apply Calc_Proofs.Ok_inj in R. subst out.
  apply pipelines_incl in I. assert (Io : In o outs) by (destruct (t_having k); [apply filter_In in I; apply I|exact I]).
  assert (Rq : run_wquery frepr ident ext lib str_of leK nested wfn cfg (loaded frepr ident ext lib leK (mkplan (mkconfig (erase (s_cols cfg)) [] []) (snd (where_parts frepr ident ext (ws_where st))) k) table) = Ok outs)
    by (destruct (t_kind k); try discriminate Ro; exact Ro).
  unfold run_wquery in Rq. destruct (mapm_in _ _ _ _ _ _ Rq Io) as (x & Ex). unfold wout_row in Ex. destruct (wfirst_row _ _ _ _ _ _ _ _ _ _ _) as [first|] eqn:Ef; [|discriminate].
  cbn [bind] in Ex. apply Calc_Proofs.Ok_inj in Ex. apply wfirst_names in Ef. cbn [s_cols s_finals cfg] in *.
  assert (FN : finals_of frepr ident ext (wq_items (ws_query st)) = []).
  { clear - D. induction D as [|[n i] l H D IH]; [reflexivity|]. unfold finals_of in *. cbn [flat_map snd] in *. rewrite IH. destruct i; try reflexivity. destruct H. }
  assert (CN : map fst (cols_of frepr ident ext (ws_query st) (wq_items (ws_query st))) = map fst (wq_items (ws_query st))).
  { clear - D. generalize (ws_query st) at 1. intros q. induction D as [|[n i] l H D IH]; [reflexivity|]. unfold cols_of in *. cbn [flat_map snd fst map] in *. rewrite map_app, IH. destruct i; try reflexivity. destruct H. }
  rewrite FN in Ex. cbn [wsecond_row fold_left] in Ex. rewrite <- Ex, Ef. exact CN.
Qed.

(** A SELECT with window functions over a source with an alias, ordered by items of the select list, is answered. *)
Lemma windowed_aliased : forall a st table, a <> [] -> windowed_statement tt fn known (wbare st) ->
  Forall (fun nd => exists i, In (fst nd, i) (wq_items (ws_query st)) /\ direct i) (ws_order st) -> plain_limit (ws_limit st) ->
  (forall rows, Permutation (filter (holds tt fn (ws_where st)) table) rows ->
     rows_fit frepr ident ext lib tt leK sql_frame (ws_query st) rows /\ no_ties frepr ident ext lib tt leK (ws_query st) rows) ->
  exists out, run_waliased (Some a) st table = Ok out /\ windowed_result tt fn str_of leK equal_keys wfn sql_frame st table out.
Proof.
  intros a st table NE W O PL Fit. destruct (windowed_select frepr ident ext lib tt str_of leK nested wfn known other rematch NN TK (wbare st) table W Fit) as (outs & R & Res).
  destruct W as (PQ & HW & _). eexists. split; [apply waliased_run; eassumption|]. apply aliased_result; assumption.
Qed.
End Windows.

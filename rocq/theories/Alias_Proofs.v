From Coq Require Import SpecFloat Permutation Sorting.Sorted.
From Verif Require Import Base PyVal Utils_Model Calc_Model Expr_Syntax Expr_Model Expr_Spec Where_Model Having_Model Group_Syntax Group_Model
  Inner_Syntax Inner_Model Select_Model Select_Spec Select_Proofs Select_Props Whole_Syntax Cast_Syntax Cast_Where Whole_Model Whole_Spec Whole_Proofs Collapse_Model Alias_Model.
Open Scope Z_scope.

Section Alias.
Variable frepr : spec_float -> text.
Variable ident : val -> val -> bool.
Variable ext : text -> option (list val -> val).
Variable lib : text -> list val -> val.
Variable str_of : val -> text.
Variable primary : option text.
Variable pick pick1 : list row -> row.
Variable nested : text -> row -> val.
Variable raw : list (text * state) -> val.
Variable state_name : path -> text.
Variable other : expr -> res hcol.
Variable rematch : text -> val -> bool.
Variable leK : val -> val -> bool.
Notation run_aliased := (run_aliased frepr ident ext lib str_of primary pick pick1 nested raw state_name other rematch leK).

(** Without alias: the statements of Collapse_Model. *)
Lemma no_alias_collapsed : forall d st table,
  run_aliased None d st table = run_collapsed frepr ident ext lib str_of primary pick pick1 nested raw state_name other rematch leK d st table.
Proof.
  intros d st table. unfold Alias_Model.run_aliased, run_collapsed. unfold compile_aliased, compile_collapsed. cbv zeta.
  destruct (compile_written _ _ _ _ _) as [cfg|]; [|reflexivity]. cbn [bind]. destruct (residual _ _ _ _ _) as [pred|]; [|reflexivity]. cbn [bind].
  destruct (match st_having st with None => _ | Some _ => _ end) as [hav|]; [|reflexivity]. cbn [bind].
  change (set_alias None (set_distinct d (select_by frepr ident ext lib rematch (where_parts frepr ident ext (st_where st)) st cfg pred hav)))
    with (set_distinct d (select_by frepr ident ext lib rematch (where_parts frepr ident ext (st_where st)) st cfg pred hav)).
  destruct (compile_select _ _ _) as [k|]; [|reflexivity]. cbn [bind p_config p_task]. unfold kind_rows. destruct (t_kind k); reflexivity.
Qed.
(** Without alias and DISTINCT, when the task is not one of GROUP BY without aggregates: the statements of Whole_Model. *)
Lemma no_alias_statement : forall st table out,
  run_statement frepr ident ext lib str_of pick nested raw state_name other rematch leK st table = Ok out ->
  run_aliased None false st table = Ok out.
Proof.
  intros st table out. unfold Alias_Model.run_aliased, run_statement, run_plan. unfold compile_aliased, compile_statement, compile_by. cbv zeta.
  destruct (compile_written _ _ _ _ _) as [cfg|]; [|discriminate]. cbn [bind]. destruct (residual _ _ _ _ _) as [pred|]; [|discriminate]. cbn [bind].
  destruct (match st_having st with None => _ | Some _ => _ end) as [hav|]; [|discriminate]. cbn [bind].
  change (set_alias None (set_distinct false (select_by frepr ident ext lib rematch (where_parts frepr ident ext (st_where st)) st cfg pred hav)))
    with (select_by frepr ident ext lib rematch (where_parts frepr ident ext (st_where st)) st cfg pred hav).
  destruct (compile_select _ _ _) as [k|]; [|discriminate]. cbn [bind p_config p_task]. unfold kind_rows. destruct (t_kind k); try discriminate; exact (fun H => H).
Qed.

(** ** With an alias *)
Definition bare (st : statement) : statement := mkstatement (st_items st) (st_where st) (st_group st) (st_having st) [] None None.
Lemma insert_true : forall A (f : A -> A -> bool) l, (forall x y, f x y = true) -> sort f l = l.
Proof.
  intros A f l H. induction l as [|x l IH]; [reflexivity|]. unfold sort in *. cbn [fold_right]. rewrite IH. destruct l as [|y l']; [reflexivity|]. cbn [insert]. rewrite H. reflexivity.
Qed.
Lemma order_keys_unpushed : forall q l, Forall (fun nd => pushed row output q [] (fst nd) = false) l ->
  order_keys row output q (map (fun nd : text * bool => OCol [] (fst nd) (snd nd)) l) = Ok (map (fun nd => (nd, false)) l).
Proof.
  intros q l F. induction F as [|[n d] l H F IH]; [reflexivity|]. cbn [map order_keys order_key fst snd bind] in *. rewrite IH. cbn [bind]. rewrite H. reflexivity.
Qed.

(** The statement without ORDER BY and LIMIT gives [outs]; with the alias, ORDER BY and LIMIT it gives their page once sorted. *)
Lemma aliased_run : forall a d st table outs, a <> [] ->
  (forall cfg, compile_written state_name frepr ident ext (mkwritten (st_items st) (st_group st)) = Ok cfg -> map fst (g_schema cfg) = map fst (st_items st)) ->
  Forall (fun nd => In (fst nd) (map fst (st_items st))) (st_order st) -> plain_limit (st_limit st) ->
  (st_limit st = None \/ st_having st <> None \/ st_order st <> [] \/
   forall cfg pred hav, compile_written state_name frepr ident ext (mkwritten (st_items st) (st_group st)) = Ok cfg ->
     select_kind _ _ (set_distinct d (to_select frepr ident ext lib rematch (bare st) cfg pred hav)) <> Ok KGrouped /\
     select_kind _ _ (set_distinct d (to_select frepr ident ext lib rematch (bare st) cfg pred hav)) <> Ok KDistinct) ->
  run_aliased None d (bare st) table = Ok outs ->
  run_aliased (Some a) d st table =
    Ok (paged (st_limit st) (st_offset st) (sort (lex_le leK (map (fun nd => ((fun o => column o (fst nd)), snd nd)) (st_order st))) outs)).
Proof.
  intros a d st table outs NE Names O PL LH. unfold Alias_Model.run_aliased, compile_aliased. cbv zeta. cbn [st_items st_group st_where st_having bare].
  destruct (compile_written _ _ _ _ _) as [cfg|]; [|discriminate]. cbn [bind]. destruct (residual _ _ _ _ _) as [pred|]; [|discriminate]. cbn [bind].
  destruct (match st_having st with None => _ | Some _ => _ end) as [hav|] eqn:Hh; [|discriminate]. cbn [bind]. specialize (Names cfg eq_refl).
  assert (HN : st_having st <> None -> hav <> None).
  { destruct (st_having st) as [e|]; [|congruence]. destruct (having _ _ _ _ _ e); cbn [bind] in Hh; [|discriminate Hh]. injection Hh as <-. discriminate. }
  set (q0 := select_by frepr ident ext lib rematch (where_parts frepr ident ext (st_where st)) (bare st) cfg pred hav).
  set (q := select_by frepr ident ext lib rematch (where_parts frepr ident ext (st_where st)) st cfg pred hav).
  set (q0' := set_alias None (set_distinct d q0)). set (q' := set_alias (Some a) (set_distinct d q)).
  assert (K : select_kind row output q' = select_kind row output q0') by reflexivity.
  assert (LH' : st_limit st = None \/ s_having _ _ q' <> None \/ st_order st <> [] \/ select_kind row output q' <> Ok KGrouped /\ select_kind row output q' <> Ok KDistinct).
  { destruct LH as [LH|[LH|[LH|LH]]]; [auto|right; left| |].
    - unfold q', q. cbn [set_alias set_distinct select_by s_having]. specialize (HN LH). destruct hav; [discriminate|congruence].
    - auto.
    - right. right. right. exact (LH cfg pred hav eq_refl). }
  clear LH HN Hh.
  assert (Un : Forall (fun nd => pushed row output q' [] (fst nd) = false) (st_order st)).
  { eapply Forall_impl; [|exact O]. intros nd I. unfold pushed, q', q, has_alias. cbn [set_alias set_distinct select_by s_schema s_table s_aggregate s_columns s_alias].
    rewrite Names. apply memb_In in I. rewrite I. cbn [negb]. rewrite andb_false_r. destruct a; [congruence|]. destruct (aggregate_part st cfg) as [[x y]|]; [|reflexivity]. destruct (_ && _); reflexivity. }
  assert (C0 : compile_select row output q0' = do k <- select_kind row output q0'; Ok (mktask (s_predicate _ _ q') k (s_having _ _ q') [] 0 [])) by reflexivity.
  rewrite C0. destruct (select_kind row output q0') as [k|] eqn:K0; [|discriminate]. cbn [bind p_config p_task t_kind t_pipelines t_having fold_left].
  set (src := filter (fun r => source_keeps frepr ident ext lib r (snd (where_parts frepr ident ext (st_where st)))) table).
  unfold loaded at 1. cbn [p_task p_querys t_predicate t_limit t_orders]. change (filter (fun r => source_keeps frepr ident ext lib r (snd (where_parts frepr ident ext (st_where st)))) table) with src.
  rewrite insert_true by reflexivity. change (take 0 src) with src.
  destruct (kind_rows _ _ _ _ _ _ _ _ _ _ _ _ k (keep (s_predicate row output q') src)) as [outs0|] eqn:KR; [|discriminate]. cbn [bind]. intros R. injection R as <-.
  (* ORDER BY *)
  assert (OC : compile_order row output q' = Ok ([], match st_order st with [] => [] | l => [PSort l] end)).
  { unfold compile_order. change (s_order row output q') with (map (fun nd : text * bool => OCol [] (fst nd) (snd nd)) (st_order st)). rewrite order_keys_unpushed by exact Un. cbn [bind]. cbv zeta.
    assert (F0 : filter snd (map (fun nd : text * bool => (nd, false)) (st_order st)) = []) by (generalize (st_order st); intros l; induction l as [|x l IH]; [reflexivity|exact IH]).
    rewrite F0. rewrite map_map. cbn [fst]. rewrite map_id. cbn [map length].
    destruct (st_order st) as [|x l]; [reflexivity|]. cbn [length Nat.ltb Nat.leb]. change (s_schema row output q') with (Some (map fst (g_schema cfg))). rewrite Names.
    assert (FB : forallb (fun k : text * bool => memb (fst k) (map fst (st_items st))) (x :: l) = true).
    { apply forallb_forall. intros y Iy. apply memb_In. rewrite Forall_forall in O. exact (O y Iy). }
    rewrite FB. reflexivity. }
  unfold compile_select. rewrite OC. cbn [bind snd fst].
  set (le := lex_le leK (map (fun nd : text * bool => ((fun o : list (text * val) => column o (fst nd)), snd nd)) (st_order st))).
  set (ps := match st_order st with [] => [] | l => [PSort l] end).
  assert (SP : forall l, fold_left (apply_pipeline output val leK field) ps l = sort le l).
  { intros l. unfold ps, le. destruct (st_order st) as [|x r]; [cbn [fold_left map]; rewrite insert_true by reflexivity; reflexivity|]. cbn [fold_left apply_pipeline].
    apply sort_ext. intros u v. rewrite le_by_lex. reflexivity. }
  destruct (compile_limit row output q' ps) as [p l] eqn:CL. rewrite K. cbn [bind p_config p_task t_kind t_pipelines t_having].
  unfold loaded. cbn [p_task p_querys t_predicate t_limit t_orders]. change (filter (fun r => source_keeps frepr ident ext lib r (snd (where_parts frepr ident ext (st_where st)))) table) with src.
  rewrite insert_true by reflexivity.
  (* LIMIT and OFFSET *)
  unfold compile_limit in CL. change (s_offset row output q') with (st_offset st) in CL. change (s_limit row output q') with (st_limit st) in CL. cbv zeta in CL.
  set (ov := match st_offset st with Some o => Z.max o 0 | None => 0 end) in *.
  assert (Hov : 0 <= ov) by (unfold ov; destruct (st_offset st); lia).
  assert (Pg : forall A (l : list A), paged (st_limit st) (st_offset st) l = match st_limit st with Some n => firstn (Z.to_nat n) (skipn (Z.to_nat ov) l) | None => skipn (Z.to_nat ov) l end).
  { intros A l0. unfold paged, ov. destruct (st_offset st) as [o|]; [|reflexivity]. replace (Z.to_nat (Z.max o 0)) with (Z.to_nat o) by lia. reflexivity. }
  rewrite Pg. destruct (st_limit st) as [n|] eqn:EL.
  - pose proof (PL n eq_refl) as Hn. replace (n =? 0) with false in CL by (symmetry; apply Z.eqb_neq; lia). replace (0 <? n) with true in CL by (symmetry; apply Z.ltb_lt; lia).
    replace (n <=? 0) with false in CL by (symmetry; apply Z.leb_gt; lia). cbn [negb orb] in CL. rewrite orb_false_r in CL.
    destruct (_ || negb (is_nil ps)) eqn:B.
    + injection CL as <- <-. change (take 0 src) with src. rewrite KR. cbn [bind]. rewrite fold_left_app, SP. cbn [fold_left apply_pipeline]. rewrite pyslice_page by lia. reflexivity.
    + injection CL as <- <-. repeat (apply orb_false_elim in B; destruct B as [B ?B]).
      assert (ps = []) as Eps by (destruct ps; [reflexivity|discriminate]).
      assert (Ep : s_predicate row output q' = None) by (destruct (s_predicate row output q'); [discriminate|reflexivity]).
      assert (Eh : s_having row output q' = None) by (destruct (s_having row output q'); [discriminate|reflexivity]).
      assert (EO : st_order st = []) by (unfold ps in Eps; destruct (st_order st); [reflexivity|discriminate]).
      assert (Hn' : hav = None) by (clear - Eh; destruct hav; [discriminate Eh|reflexivity]).
      rewrite Ep in KR |- *. rewrite Eh. cbn [keep] in KR |- *.
      assert (Kp : k = KPlain).
      { destruct LH' as [LH|[LH|[LH|[L1 L2]]]]; [discriminate LH|congruence|congruence|]. rewrite K in L1, L2. clear - K0 L1 L2 B2 B1. destruct k; [reflexivity| |destruct (L1 eq_refl)|destruct (L2 eq_refl)].
        change (has_aggregates row output q') with (has_aggregates row output q0') in B2. change (has_windows row output q') with (has_windows row output q0') in B1.
        unfold select_kind in K0. rewrite B2, B1 in K0. exfalso. destruct (s_group _ _ q0'), (s_distinct _ _ q0'), (s_schema _ _ q0') as [[|]|]; discriminate K0. }
      subst k. cbn [kind_rows] in KR |- *. injection KR as <-. cbn [bind]. rewrite Eps. rewrite <- SP, Eps. cbn [fold_left app].
      unfold take. replace (0 <? ov + n) with true by (symmetry; apply Z.ltb_lt; lia).
      destruct (0 <? ov) eqn:Bz; cbn [fold_left apply_pipeline].
      * apply Z.ltb_lt in Bz. rewrite pyslice_skip by lia. rewrite <- firstn_map. rewrite skipn_firstn_comm. rewrite Hn'. cbn [option_map keep]. do 2 f_equal. lia.
      * apply Z.ltb_ge in Bz. replace ov with 0 by lia. cbn [Z.to_nat skipn Z.add]. rewrite <- firstn_map. rewrite Hn'. reflexivity.
  - change (0 =? 0) with true in CL. cbn [negb orb] in CL. destruct (0 <? ov) eqn:B.
    + change (0 <=? 0) with true in CL. rewrite orb_true_r in CL. injection CL as <- <-. change (take 0 src) with src. rewrite KR. cbn [bind]. rewrite fold_left_app, SP. cbn [fold_left apply_pipeline]. rewrite pyslice_skip by lia. reflexivity.
    + injection CL as <- <-. change (take 0 src) with src. rewrite KR. cbn [bind]. rewrite SP. apply Z.ltb_ge in B. replace ov with 0 by lia. reflexivity.
Qed.
End Alias.

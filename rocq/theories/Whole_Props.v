(** C211, C212: a SELECT statement as a whole. *)
From Coq Require Import SpecFloat Permutation Sorting.Sorted.
From Verif Require Import Base PyVal Utils_Model Calc_Model Expr_Syntax Expr_Model Expr_Spec Expr_Proofs Expr_Props Where_Model Where_Spec Where_Proofs Where_Props
  Having_Model Having_Spec Having_Proofs Having_Props Agg_Spec Reduce_Spec Group_Syntax Group_Model Group_Spec Group_Proofs Group_Props
  Inner_Syntax Inner_Model Inner_Spec Inner_Proofs Inner_Props Select_Model Select_Spec Select_Proofs Select_Props Whole_Syntax Cast_Syntax Cast_Where Cast_Spec Cast_Proofs Whole_Model Whole_Spec Whole_Proofs.
Open Scope Z_scope.

(** A statement without aggregates, whatever its ORDER BY: how its execution is that of Select_Model. *)
Lemma plain_parts : forall frepr ident ext lib tt str_of pick nested raw state_name other rematch leK,
  ext (t "neg") = None ->
  let fn := sql_fn frepr ident ext lib in
  forall st table, plain_body tt fn st ->
  exists cfg pred hav, let q := to_select frepr ident ext lib rematch st cfg pred hav in
    let src := filter (fun r => source_keeps frepr ident ext lib r (snd (where_parts frepr ident ext (st_where st)))) table in
    map fst (g_schema cfg) = map fst (st_items st) /\
    select_kind _ _ q = Ok KPlain /\ collapses q = false /\
    (forall n, pushed _ _ q [] n = true <-> In n (known_columns frepr ident ext st cfg) \/ ~ In n (map fst (st_items st))) /\
    (forall op, compile_order _ _ q = Ok op -> run_statement frepr ident ext lib str_of pick nested raw state_name other rematch leK st table =
       run_select row output val leK (fun n r => r n) field (plain_row frepr ident ext lib cfg) (fun _ => []) (fun _ => []) (fun _ => []) q src) /\
    keep (s_predicate row output q) src = filter (holds tt fn (st_where st)) table /\
    (forall l, keep (s_having row output q) l = filter (fun o => holds tt fn (st_having st) (column o)) l) /\
    forall r, plain_row frepr ident ext lib cfg r = result_row tt fn st r.
Proof.
  intros fr id ext lib tt so pick nested raw nm other rm leK NN fn st table P.
  assert (P' : plain_statement tt fn (mkstatement (st_items st) (st_where st) (st_group st) (st_having st) [] (st_limit st) (st_offset st))).
  { unfold plain_statement. destruct P as (P1 & P2 & P3 & P4 & P5 & P6). repeat (split; [assumption|]). left. apply Forall_nil. }
  destruct (free_config fr id ext lib tt NN nm _ P') as (cfg & C & Names & NA & Row). cbn [st_items st_group] in C, Names. clear P'.
  pose proof P as (ND & F & G & PW & PH & PL). rewrite Forall_forall in F.
  destruct (where_whole fr id ext lib tt NN cfg (st_where st) PW) as (pred & R & W & _).
  destruct (having_whole fr id ext lib tt NN other rm st (map fst (g_schema cfg)) PH) as (hav & H & HV); [rewrite Names; auto|].
  exists cfg, pred, hav. intros q src.
  assert (HA : has_aggregates _ _ q = false) by (unfold has_aggregates, q, to_select, select_by, aggregate_part; cbn [s_aggregate]; rewrite NA; destruct (st_having st); reflexivity).
  assert (HW : has_windows _ _ q = false) by (unfold has_windows, q, to_select, select_by, aggregate_part; cbn [s_aggregate]; rewrite NA; destruct (st_having st); reflexivity).
  assert (K : select_kind _ _ q = Ok KPlain) by (unfold select_kind; rewrite HA, HW; unfold q, to_select, select_by; cbn [s_group s_distinct]; rewrite G; reflexivity).
  split; [exact Names|]. split; [exact K|]. split; [unfold collapses; rewrite HA; unfold q, to_select, select_by; cbn [s_group s_distinct]; rewrite G; reflexivity|]. split; [|split; [|split; [|split]]].
  - intros n. unfold pushed, q, to_select, select_by, aggregate_part, has_alias. cbn [s_schema s_aggregate s_columns s_alias s_table]. rewrite NA, Names.
    destruct (st_having st); cbn [map memb existsb negb andb]; rewrite orb_true_iff, negb_true_iff, memb_In, <- memb_In with (l := map fst (st_items st)), not_true_iff_false; reflexivity.
  - intros [o p] OC.
    assert (CS : exists k, compile_select _ _ q = Ok k /\ t_kind k = KPlain /\ t_predicate k = s_predicate _ _ q /\ t_having k = s_having _ _ q).
    { unfold compile_select. rewrite OC. cbn [bind snd fst]. destruct (compile_limit _ _ q p) as [p' l']. rewrite K. cbn [bind]. eexists. split; [reflexivity|repeat split]. }
    unfold run_statement, run_plan, compile_statement, compile_by. rewrite C. cbn [bind]. rewrite R. cbn [bind]. rewrite H. cbn [bind]. change (select_by fr id ext lib rm (where_parts fr id ext (st_where st)) st cfg pred hav) with q. destruct CS as (k & Ck & Kk & _). unfold run_select. rewrite Ck. cbn [bind p_task p_config].
    rewrite Kk. cbn [bind]. unfold run_task, loaded. cbn [p_task p_querys]. rewrite Kk. reflexivity.
  - unfold src, q, to_select, select_by. cbn [s_predicate]. rewrite keep_filter. apply filter_ext. intros r. etransitivity; [|exact (W r)]. destruct pred; reflexivity.
  - intros l. unfold q, to_select, select_by. cbn [s_having]. apply keep_as. intros o. etransitivity; [|exact (HV o)]. destruct hav; reflexivity.
  - exact Row.
Qed.

(** C211.  Every statement of the class [plain_statement] is accepted, and whatever the table, its result is: the rows on which WHERE is TRUE, sorted by
    ORDER BY, rows that compare equal in the order of the table; of each the items of the select list; of these the rows on which HAVING is TRUE; and of
    these the page given by LIMIT and OFFSET. *)
Theorem plain_select : forall frepr ident ext lib tt str_of pick nested raw state_name other rematch leK,
  ext (t "neg") = None -> total_preorder leK ->
  let fn := sql_fn frepr ident ext lib in
  forall st table, plain_statement tt fn st ->
  exists out, run_statement frepr ident ext lib str_of pick nested raw state_name other rematch leK st table = Ok out /\
              plain_result tt fn leK st table out.
Proof.
  intros fr id ext lib tt so pick nested raw nm other rm leK NN TK fn st table P.
  pose proof P as (ND & F & G & PW & PH & PL & O).
  destruct (plain_parts fr id ext lib tt so pick nested raw nm other rm leK NN st table) as (cfg & pred & hav & Z); [repeat (split; [assumption|]); assumption|].
  set (q := to_select fr id ext lib rm st cfg pred hav) in *. cbv zeta in Z. fold q in Z.
  set (src := filter (fun r => source_keeps fr id ext lib r (snd (where_parts fr id ext (st_where st)))) table) in *.
  destruct Z as (Names & K & NC & Push & Run & Eq & HK & Row).
  set (key := fun it r => match it with OCol _ n _ => order_value tt fn st n r | OExp _ _ _ => VNone end).
  assert (Item : forall n, In n (map fst (st_items st)) -> exists e, In (n, e) (st_items st)).
  { intros n I. apply in_map_iff in I as ([m e] & <- & I). exists e. exact I. }
  assert (Val : forall n e r, In (n, e) (st_items st) -> order_value tt fn st n r = sem tt fn r e).
  { intros n e r I. unfold order_value. rewrite (assoc_nodup _ n _ e ND I). reflexivity. }
  (* ORDER BY *)
  assert (OC : exists op, compile_order _ _ q = Ok op).
  { apply order_ok. exists (map fst (g_schema cfg)). split; [reflexivity|]. rewrite Names. destruct O as [O|O]; [left|right]; intros it I;
      unfold q, to_select, select_by in I; cbn [s_order] in I; apply in_map_iff in I as ([n d] & <- & I); exists n, d; (split; [reflexivity|]); rewrite Forall_forall in O; specialize (O _ I); cbn [fst] in O.
    - destruct O as (e & J & _). apply (in_map fst) in J. exact J.
    - apply Push. destruct (in_dec text_eq_dec n (map fst (st_items st))) as [J|J]; [left|right; exact J]. apply Item in J as (e & J). rewrite (O e J) in J.
      eapply item_known; [exact J|constructor]. }
  destruct OC as (op & OC). rewrite (Run op OC), whole_limit by (exact NC || exact PL).
  destruct (run_select _ _ _ _ _ _ _ _ _ _ (with_limit q None None) src) as [l|err] eqn:RL.
  2: { exfalso. unfold run_select, compile_select in RL. rewrite order_with_limit in RL. destruct op as [o p]. rewrite OC in RL. cbn [bind snd fst] in RL.
       destruct (compile_limit _ _ _ p) as [p' l']. change (select_kind row output (with_limit q None None)) with (select_kind row output q) in RL. rewrite K in RL. discriminate RL. }
  cbn [bind]. eexists. split; [reflexivity|].
  destruct (order_by_rows row output val leK (fun n r => r n) field (plain_row fr id ext lib cfg) (fun _ => []) (fun _ => []) (fun _ => []) TK key q src l K) as (rows & S & L).
  - intros tb n d I. unfold q, to_select, select_by in I. cbn [s_order] in I. apply in_map_iff in I as ([n' d'] & E & I). injection E as <- <- <-. cbn [fst snd]. unfold q, to_select, select_by. cbn [s_schema s_columns s_table].
    intros [[_ X]|(_ & _ & X)] r; [congruence|]. unfold key. rewrite Names in X. destruct O as [O|O]; rewrite Forall_forall in O; specialize (O _ I); cbn [fst] in O.
    + destruct O as (e & J & [->|U]); [rewrite (Val n' _ r J); reflexivity|]. exfalso. destruct X as [X|X]; [|apply X; apply (in_map fst) in J; exact J].
      apply U. eapply known_used; eassumption.
    + unfold order_value. destruct (assoc n' (st_items st)) as [e|] eqn:A; [|reflexivity]. apply assoc_pair in A. rewrite (O e A). reflexivity.
  - intros schema Es. split; [|intros sql lsql d I; unfold q, to_select, select_by in I; cbn [s_order] in I; apply in_map_iff in I as (? & E & _); discriminate E].
    intros tb n d I J r. unfold key. rewrite Row. unfold q, to_select, select_by in Es. cbn [s_schema] in Es. injection Es as <-. rewrite Names in J. apply Item in J as (e & J). rewrite (Val n e r J).
    unfold field, result_row. rewrite (assoc_nodup _ n _ (sem tt fn r e)); [reflexivity|rewrite map_map; exact ND|]. apply in_map_iff. exists (n, e). split; [reflexivity|exact J].
  - exact RL.
  - exists rows. split.
    + change (filter (holds tt fn (st_where st)) table) with (filter (holds tt (sql_fn fr id ext lib) (st_where st)) table). rewrite <- Eq. unfold order_le, q, to_select, select_by in S. cbn [s_order s_predicate] in S. rewrite map_map in S. exact S.
    + unfold q at 1 2. unfold to_select, select_by. cbn [s_limit s_offset]. f_equal. rewrite L. rewrite (map_ext _ _ Row). apply HK.
Qed.
Print Assumptions plain_select.

(** C213, the characterisation: when every name in ORDER BY is used in an item or inside a calculation of HAVING, or is no item, then the rows
    are sorted by the columns of these names in the table, even if an item of the select list has that name. *)
Theorem order_by_used_name : forall frepr ident ext lib tt str_of pick nested raw state_name other rematch leK,
  ext (t "neg") = None -> total_preorder leK ->
  let fn := sql_fn frepr ident ext lib in
  forall st table, plain_body tt fn st -> Forall (fun nd => calculated_with st (fst nd) \/ ~ In (fst nd) (map fst (st_items st))) (st_order st) ->
  exists out, run_statement frepr ident ext lib str_of pick nested raw state_name other rematch leK st table = Ok out /\
    exists rows, sorted_as (lex_le leK (map (fun nd => ((fun r => r (fst nd)), snd nd)) (st_order st))) (filter (holds tt fn (st_where st)) table) rows /\
      out = paged (st_limit st) (st_offset st) (filter (fun o => holds tt fn (st_having st) (column o)) (map (result_row tt fn st) rows)).
Proof.
  intros fr id ext lib tt so pick nested raw nm other rm leK NN TK fn st table P O.
  destruct (plain_parts fr id ext lib tt so pick nested raw nm other rm leK NN st table P) as (cfg & pred & hav & Z).
  set (q := to_select fr id ext lib rm st cfg pred hav) in *. cbv zeta in Z. fold q in Z.
  set (src := filter (fun r => source_keeps fr id ext lib r (snd (where_parts fr id ext (st_where st)))) table) in *.
  destruct Z as (Names & K & NC & Push & Run & Eq & HK & Row). rewrite Forall_forall in O.
  assert (All : Forall (fun nd => pushed _ _ q [] (fst nd) = true) (st_order st)).
  { apply Forall_forall. intros nd I. apply Push. destruct (O nd I) as [U|U]; [left; apply calculated_known; assumption|right; exact U]. }
  assert (OC : compile_order _ _ q = Ok (st_order st, [])).
  { unfold compile_order. change (s_order row output q) with (map (fun nd : text * bool => OCol [] (fst nd) (snd nd)) (st_order st)).
    assert (OK : order_keys row output q (map (fun nd => OCol [] (fst nd) (snd nd)) (st_order st)) = Ok (map (fun nd => (nd, true)) (st_order st))).
    { clear - All. induction All as [|[n d] l A _ IH]; [reflexivity|]. cbn [map fst snd order_keys order_key bind] in *. rewrite IH. cbn [bind]. rewrite A. reflexivity. }
    rewrite OK. cbn [bind]. assert (FA : filter snd (map (fun nd : text * bool => (nd, true)) (st_order st)) = map (fun nd => (nd, true)) (st_order st))
      by (clear; induction (st_order st) as [|x l IH]; [reflexivity|cbn [map filter snd]; rewrite IH; reflexivity]).
    rewrite FA, map_map. cbn [fst]. rewrite map_id, Nat.ltb_irrefl. reflexivity. }
  rewrite (Run _ OC), whole_limit by (exact NC || apply P).
  unfold run_select, compile_select. rewrite order_with_limit, OC. cbn [bind snd fst]. unfold compile_limit. cbn [s_limit s_offset with_limit]. change (negb (0 =? 0) || (0 <? 0))%bool with false. cbv iota zeta.
  change (select_kind row output (with_limit q None None)) with (select_kind row output q). rewrite K. cbn [bind]. unfold run_task. cbn [t_pipelines t_having t_kind t_predicate t_limit t_orders compute fold_left].
  change (take 0 ?l) with l. change (s_predicate row output (with_limit q None None)) with (s_predicate row output q). change (s_having row output (with_limit q None None)) with (s_having row output q).
  eexists. split; [reflexivity|]. set (le := lex_le leK (map (fun nd : text * bool => ((fun r : row => r (fst nd)), snd nd)) (st_order st))).
  assert (TL : total_preorder le) by (apply lex_total; exact TK).
  exists (filter (holds tt fn (st_where st)) (sort le table)). split; [apply sorted_as_filter, sort_sorted_as; exact TL|].
  change (s_limit row output q) with (st_limit st). change (s_offset row output q) with (st_offset st). rewrite HK. do 2 f_equal. rewrite (map_ext _ _ Row). f_equal.
  assert (Le : forall x y : row, le_by val leK (fun n (r : row) => r n) (st_order st) x y = le x y).
  { intros x y. unfold le. rewrite le_by_lex. f_equal. }
  rewrite (sort_ext _ _ le _ Le). rewrite <- (sort_filter _ le _ _ TL). change (filter (holds tt fn (st_where st)) table) with (filter (holds tt (sql_fn fr id ext lib) (st_where st)) table). rewrite <- Eq. destruct (s_predicate row output q); cbn [keep]; [symmetry; apply sort_filter; exact TL|reflexivity].
Qed.
Print Assumptions order_by_used_name.


Lemma item_field : forall (P : expr -> val -> Prop) items o n e, NoDup (map fst items) -> In (n, e) items ->
  Forall2 (fun ne nv => fst nv = fst ne /\ P (snd ne) (snd nv)) items o -> P e (field n o).
Proof.
  intros P items o n e ND I F. unfold field. induction F as [|[m x] [m' v] items o [E H] F IH]; [destruct I|]. cbn [fst snd map] in *. subst m'. cbn [assoc].
  inversion ND as [|? ? N1 N2]; subst. destruct I as [I|I].
  - injection I as -> ->. rewrite text_eqb_refl. exact H.
  - destruct (text_eqb n m) eqn:E; [|exact (IH N2 I)]. apply text_eqb_spec in E. subst m. exfalso. apply N1. apply (in_map fst) in I. exact I.
Qed.
Lemma sorted_weaken : forall A (R S : A -> A -> Prop) l, (forall x y, R x y -> S x y) -> StronglySorted R l -> StronglySorted S l.
Proof. intros A R S l H Z. induction Z as [|x l Z IH F]; constructor; [exact IH|]. eapply Forall_impl; [|exact F]. intros y. apply H. Qed.
Lemma equal_keys_at : forall A (f g : A -> val) l x, In x l -> equal_keys (map f l) (map g l) = true -> pyeq (f x) (g x) = true.
Proof.
  intros A f g l x I. rewrite equal_keys_same. induction l as [|y l IH]; [destruct I|]. cbn [map same_key]. intros H. apply andb_prop in H. destruct H as [H1 H2].
  destruct I as [->|I]; [exact H1|exact (IH I H2)].
Qed.

(** C212.  Every statement of the class [grouped_statement] is accepted, and whatever the table, provided the values of each group can be aggregated, its result
    is: the rows on which WHERE is TRUE, in some order; one row for each distinct value of the GROUP BY items on them, with the items of the select list, every
    aggregate call having its value over the rows of the group; of these the rows on which HAVING is TRUE, sorted by ORDER BY; and of these the page
    given by LIMIT and OFFSET.  Without ORDER BY all is in the order of the table. *)
Theorem grouped_select : forall frepr ident ext lib tt str_of pick nested raw state_name other rematch leK,
  ext (t "neg") = None -> total_preorder leK -> (forall a b, pyeq a b = true -> leK a b = true /\ leK b a = true) ->
  (forall rs, rs <> [] -> In (pick rs) rs) -> (forall p q, state_name p = state_name q -> p = q) ->
  let fn := sql_fn frepr ident ext lib in
  forall st table, grouped_statement tt fn st -> (forall p alias e, In (alias, e) (st_items st) -> ~ mentions (state_name p) e) ->
  summable_groups tt fn equal_keys st table ->
  exists out, run_statement frepr ident ext lib str_of pick nested raw state_name other rematch leK st table = Ok out /\
              grouped_result tt fn str_of leK equal_keys st table out.
Proof.
  intros fr id ext lib tt so pick nested raw nm other rm leK NN TK EQ HP INJ fn st table (PWr & PW & PH & PL & O) FR SG.
  set (w := mkwritten (st_items st) (st_group st)) in *. rewrite Forall_forall in O.
  destruct (grouped_config fr id ext nm INJ w PWr FR) as (cfg & C & Names & NA & UA).
  destruct (aggregates_anywhere fr id ext lib tt so pick nested raw nm NN HP INJ w PWr FR) as (cfg' & C' & Q). rewrite C in C'. injection C' as <-.
  destruct (where_whole fr id ext lib tt NN cfg (st_where st) PW) as (pred & R & W & _).
  destruct (having_whole fr id ext lib tt NN other rm st (map fst (g_schema cfg)) PH) as (hav & H & HV); [rewrite Names; auto|].
  pose proof PWr as (ND & _). cbn [w w_items] in ND.
  set (q := to_select fr id ext lib rm st cfg pred hav).
  set (src := filter (fun r => source_keeps fr id ext lib r (snd (where_parts fr id ext (st_where st)))) table).
  set (good := filter (holds tt fn (st_where st)) table).
  assert (Eq : keep (s_predicate row output q) src = good).
  { unfold src, good, q, to_select, select_by. cbn [s_predicate]. rewrite keep_filter. apply filter_ext. intros r. etransitivity; [|exact (W r)]. destruct pred; reflexivity. }
  assert (HK : forall l, keep (s_having row output q) l = filter (fun o => holds tt fn (st_having st) (column o)) l).
  { intros l. unfold q, to_select, select_by. cbn [s_having]. apply keep_as. intros o. etransitivity; [|exact (HV o)]. destruct hav; reflexivity. }
  (* the kind *)
  assert (AP : s_aggregate _ _ q = Some (map fst (g_agg cfg), [])).
  { unfold q, to_select, select_by, aggregate_part. cbn [s_aggregate]. destruct (g_agg cfg); [destruct (NA eq_refl)|reflexivity]. }
  assert (HA : has_aggregates _ _ q = true) by (unfold has_aggregates; rewrite AP; destruct (g_agg cfg); [destruct (NA eq_refl)|reflexivity]).
  assert (K : select_kind _ _ q = Ok KComputed) by (unfold select_kind; rewrite HA; reflexivity).
  (* ORDER BY *)
  assert (OC : exists op, compile_order _ _ q = Ok op).
  { apply order_ok. exists (map fst (g_schema cfg)). split; [reflexivity|]. rewrite Names. left. intros it I.
    unfold q, to_select, select_by in I. cbn [s_order] in I. apply in_map_iff in I as ([n d] & <- & I). exists n, d. split; [reflexivity|]. destruct (O _ I) as (e & J & _).
    apply (in_map fst) in J. exact J. }
  assert (Pushed : forall n d, In (n, d) (st_order st) -> pushed _ _ q [] n = true -> In (n, ECol n) (st_items st) /\ exists b, In (KeyCol b n) (st_group st)).
  { intros n d I P. unfold pushed, has_alias in P. rewrite AP in P. unfold q, to_select, select_by in P. cbn [s_schema s_columns s_alias s_table] in P. rewrite Names in P.
    destruct (O _ I) as (e & J & X). cbn [fst] in J, X. destruct (negb (memb n (map fst (g_agg cfg))) && negb (memb n [])) eqn:B; [|discriminate P].
    apply andb_prop in B. destruct B as [B _]. apply negb_true_iff in B. destruct X as [[-> X]|[U|U]]; [split; assumption| |]; exfalso.
    - apply UA in J; [|exact U]. apply memb_In in J. congruence.
    - apply orb_prop in P. destruct P as [P|P].
      + apply U. apply memb_In in P. eapply known_used; eassumption.
      + apply negb_true_iff in P. apply (in_map fst) in J. cbn [fst] in J. apply memb_In in J. cbn [w w_items] in P. congruence. }
  destruct OC as ([o p] & OC).
  (* the rows the groups are made of *)
  set (rows := keep (s_predicate _ _ q) (sort (le_by val leK (fun n r => r n) o) src)).
  assert (PR : Permutation good rows).
  { rewrite <- Eq. unfold rows. pose proof (sort_perm _ (le_by val leK (fun n (r : row) => r n) o) src) as Z. destruct (s_predicate row output q); cbn [keep]; [apply filter_perm|]; exact Z. }
  assert (KM : forall r rs, members equal_keys (map (fun r => (written_key (sem tt fn) w r, r)) rs) (key_of tt fn st r) = filter (fun x => equal_keys (key_of tt fn st r) (key_of tt fn st x)) rs)
    by (intros r rs; apply (keyed_members _ _ equal_keys (written_key (sem tt fn) w))).
  destruct (Q rows) as (grows & RQ & FG).
  { apply Forall_forall. intros r I. apply (SG r). fold good. eapply Permutation_in; [symmetry; exact PR|exact I]. }
  { intros k alias e x a Ik Ie P A. destruct (keyed_firsts _ _ equal_keys (written_key (sem tt fn) w) rows []) as (firsts & S & E). 
    assert (Ik' : In k (map (written_key (sem tt fn) w) firsts)) by (rewrite E; exact Ik).
    apply in_map_iff in Ik' as (r & <- & Ir). assert (Ig : In r good) by (eapply Permutation_in; [symmetry; exact PR|eapply sublist_in; eassumption]).
    change (written_key (sem tt fn) w r) with (key_of tt fn st r). rewrite KM. eapply summable_perm; [|exact (proj2 (SG r Ig) alias e x a Ie P A)].
    apply Permutation_map. apply filter_perm. exact PR. }
  change (Forall2 _ _ grows) with (group_rows tt fn so equal_keys st rows grows) in FG.
  (* as a [run_select] *)
  set (agg := fun l => match run_query fr id ext lib so pick nested raw cfg l with Ok x => x | Err _ => [] end).
  assert (CS : exists k, compile_select _ _ q = Ok k /\ t_kind k = KComputed /\ t_predicate k = s_predicate _ _ q /\ t_orders k = o).
  { unfold compile_select. rewrite OC. cbn [bind snd fst]. destruct (compile_limit _ _ q p) as [p' l']. rewrite K. cbn [bind]. eexists. split; [reflexivity|repeat split]. }
  assert (Run : run_statement fr id ext lib so pick nested raw nm other rm leK st table =
     run_select row output val leK (fun n r => r n) field (fun _ => []) agg (fun _ => []) (fun _ => []) q src).
  { unfold run_statement, run_plan, compile_statement, compile_by. change (mkwritten (st_items st) (st_group st)) with w. rewrite C. cbn [bind]. rewrite R. cbn [bind]. rewrite H. cbn [bind]. change (select_by fr id ext lib rm (where_parts fr id ext (st_where st)) st cfg pred hav) with q.
    destruct CS as (k & Ck & Kk & Kp & Ko). unfold run_select. rewrite Ck. cbn [bind p_task p_config]. rewrite Kk.
    assert (L : loaded fr id ext lib leK (mkplan cfg (snd (where_parts fr id ext (st_where st))) k) table = rows).
    { unfold loaded. cbn [p_task p_querys]. fold src. rewrite Kp, Ko, (aggregates_no_limit q k Ck HA). reflexivity. }
    rewrite L, RQ. cbn [bind]. unfold run_task. rewrite Kk, Kp, Ko, (aggregates_no_limit q k Ck HA). cbn [compute]. change (take 0 ?l) with l. 
    change (keep (s_predicate row output q) (sort (le_by val leK (fun n r => r n) o) src)) with rows.
    unfold agg. rewrite RQ. reflexivity. }
  assert (NC : collapses q = false) by (unfold collapses; rewrite HA; reflexivity).
  rewrite Run, whole_limit by (exact NC || exact PL).
  assert (RL : run_select row output val leK (fun n r => r n) field (fun _ => []) agg (fun _ => []) (fun _ => []) (with_limit q None None) src =
     Ok (fold_left (apply_pipeline output val leK field) p (keep (s_having _ _ q) grows))).
  { unfold run_select, compile_select. rewrite order_with_limit, OC. cbn [bind snd fst]. unfold compile_limit. cbn [s_limit s_offset with_limit]. change (negb (0 =? 0) || (0 <? 0))%bool with false. cbv iota zeta.
    change (select_kind row output (with_limit q None None)) with (select_kind row output q). rewrite K. cbn [bind]. unfold run_task. cbn [t_pipelines t_having t_kind t_predicate t_limit t_orders compute].
    change (take 0 ?l) with l. change (s_predicate row output (with_limit q None None)) with (s_predicate row output q). 
    change (keep (s_predicate row output q) (sort (le_by val leK (fun n r => r n) o) src)) with rows.
    unfold agg. rewrite RQ. reflexivity. }
  rewrite RL. cbn [bind]. eexists. split; [reflexivity|].
  exists rows, grows, (fold_left (apply_pipeline output val leK field) p (keep (s_having _ _ q) grows)).
  split; [exact PR|]. split; [exact FG|]. rewrite HK.
  set (sel := filter (fun o => holds tt fn (st_having st) (column o)) grows).
  set (key := fun it (r : row) => match it with OCol _ n _ => r n | OExp _ _ _ => VNone end).
  set (key_out := fun it (x : output) => match it with OCol _ n _ => field n x | OExp _ _ _ => VNone end).
  assert (Exps : forall sql lsql d, ~ In (OExp sql lsql d) (s_order _ _ q)).
  { intros sql lsql d I. unfold q, to_select, select_by in I. cbn [s_order] in I. apply in_map_iff in I as (? & E & _). discriminate E. }
  assert (OL : forall x y, order_le val leK key_out (s_order _ _ q) x y = lex_le leK (map (fun nd => ((fun o => column o (fst nd)), snd nd)) (st_order st)) x y).
  { intros x y. unfold order_le, q, to_select, select_by. cbn [s_order]. rewrite map_map. reflexivity. }
  assert (None_ : st_order st = [] -> o = [] /\ p = []).
  { intros E. unfold compile_order, q, to_select, select_by in OC. cbn [s_order] in OC. rewrite E in OC. cbn in OC. injection OC as <- <-. split; reflexivity. }
  destruct (order_cases row output val leK (fun n r => r n) field (fun _ => []) agg (fun _ => []) (fun _ => []) key output q field key_out o p OC) as [[-> Le]|(ks & k' & -> & Lo & _)].
  - intros tb n d _ _ r. reflexivity.
  - intros schema _. split; [intros tb n d _ _ x; reflexivity|intros sql lsql d I; destruct (Exps _ _ _ I)].
  - cbn [fold_left]. split; [reflexivity|]. split; [|split; [|reflexivity]].
    + apply (sublist_sorted _ _ _ grows); [apply sublist_filter|].
      destruct (keyed_firsts _ _ equal_keys (written_key (sem tt fn) w) rows []) as (firsts & S & E).
      assert (SF : StronglySorted (fun x y => order_le val leK key (s_order _ _ q) x y = true) firsts).
      { eapply sublist_sorted; [exact S|]. unfold rows. rewrite (sort_ext _ _ (order_le val leK key (s_order _ _ q)) _ Le).
        assert (S0 : StronglySorted (fun x y => order_le val leK key (s_order _ _ q) x y = true) (sort (order_le val leK key (s_order _ _ q)) src)) by (apply sort_sorted, order_le_total; exact TK).
        destruct (s_predicate _ _ q); cbn [keep]; [eapply sublist_sorted; [apply sublist_filter|exact S0]|exact S0]. }
      unfold group_rows in FG. cbv zeta in FG. unfold keys in FG. change (key_of tt fn st) with (written_key (sem tt fn) w) in FG. rewrite <- E in FG. rewrite Forall2_map_l in FG.
      eapply sorted_related; [|exact FG|exact SF]. cbn beta. intros a x b y (ra & Ia & Fa) (rb & Ib & Fb) Lab. rewrite <- Lab. rewrite <- OL. unfold order_le, q, to_select, select_by. cbn [s_order]. rewrite !map_map.
      symmetry. unfold key, key_out. cbn [descending].
      assert (Equi : forall n d r0 r z, In (n, d) (st_order st) ->
          In r (members equal_keys (map (fun r => (written_key (sem tt fn) w r, r)) rows) (written_key (sem tt fn) w r0)) ->
          Forall2 (fun ne nv => fst nv = fst ne /\ expression_value so (sem tt fn) (members equal_keys (map (fun r => (written_key (sem tt fn) w r, r)) rows) (written_key (sem tt fn) w r0)) r (snd ne) (snd nv)) (st_items st) z ->
          leK (r0 n) (field n z) = true /\ leK (field n z) (r0 n) = true).
      { intros n d r0 r z In_ Ir Fz. assert (Pn : pushed _ _ q [] n = true).
        { apply (order_pushed q o OC [] n d). unfold q, to_select, select_by. cbn [s_order]. apply in_map_iff. exists (n, d). split; [reflexivity|exact In_]. }
        destruct (Pushed n d In_ Pn) as (Ii & qb & Ig). pose proof (item_field _ _ _ n (ECol n) ND Ii Fz) as V. destruct V as (e' & Fe & ->). inversion Fe; subst; [discriminate|]. cbn [sem].
        change (written_key (sem tt fn) w r0) with (key_of tt fn st r0) in Ir. rewrite KM in Ir. apply filter_In in Ir. destruct Ir as [_ Ir]. apply EQ. unfold key_of in Ir.
        exact (equal_keys_at _ (group_value (sem tt fn) r0) (group_value (sem tt fn) r) _ _ Ig Ir). }
      pose proof (lex_equivalent row output val leK TK (map (fun nd : text * bool => (((fun r : row => r (fst nd)), (fun x : output => field (fst nd) x)), snd nd)) (st_order st)) a b x y) as LE.
      rewrite !map_map in LE. cbn [fst snd] in LE. apply LE. intros f g d I. apply in_map_iff in I as ([n d'] & E' & I). injection E' as <- <- <-. cbn [fst].
      destruct (Equi n d' a ra x I Ia Fa) as [X1 X2]. destruct (Equi n d' b rb y I Ib Fb) as [Y1 Y2]. auto.
    + intros E0. destruct (None_ E0) as [-> _]. split; [|reflexivity]. unfold rows. etransitivity; [|exact Eq]. f_equal.
      generalize src. intros l. clear. induction l as [|x l IH]; [reflexivity|]. unfold sort in *. cbn [fold_right]. rewrite IH. destruct l; reflexivity.
  - cbn [fold_left apply_pipeline]. rewrite (sort_ext _ _ _ _ Lo). split; [apply sort_perm|]. split; [|split; [|reflexivity]].
    + assert (S0 : StronglySorted (fun x y => order_le val leK key_out (s_order _ _ q) x y = true) (sort (order_le val leK key_out (s_order _ _ q)) sel)) by (apply sort_sorted, order_le_total; exact TK).
      eapply sorted_weaken; [|exact S0]. intros x y L. rewrite <- OL. exact L.
    + intros E0. destruct (None_ E0) as [_ X]. discriminate X.
Qed.
Print Assumptions grouped_select.

(** Lemmas for Joingrp_Props: groups of rows of any kind, and the joined rows as source. *)
From Coq Require Import SpecFloat Permutation Sorting.Sorted.
From Verif Require Import Base PyVal Utils_Model Calc_Model Expr_Syntax Expr_Model Expr_Spec Expr_Proofs Expr_Props
  Having_Model Having_Spec Having_Proofs Having_Props Agg_Spec Reduce_Spec Group_Syntax Group_Model Group_Spec Group_Proofs Group_Props
  Inner_Syntax Inner_Model Inner_Spec Inner_Proofs Inner_Props Select_Model Select_Spec Select_Proofs Select_Props Whole_Syntax Cast_Syntax Whole_Model Whole_Spec Whole_Proofs
  Whole_Props.
Open Scope Z_scope.

Lemma order_pushed_any : forall R (q : select R output) o, compile_order R output q = Ok (o, []) -> forall tb n d, In (OCol tb n d) (s_order _ _ q) -> pushed R output q tb n = true.
Proof.
  intros R q o H tb n d I. unfold compile_order in H. destruct (order_keys R output q (s_order R output q)) as [ks|] eqn:K; [|discriminate]. cbn [bind] in H.
  assert (F : Forall2 (fun it k => match it with OCol tb n _ => snd k = pushed R output q tb n | _ => True end) (s_order R output q) ks).
  { clear H I. revert ks K. generalize (s_order R output q). intros l. induction l as [|it l IH]; intros ks K; cbn [order_keys] in K; [injection K as <-; constructor|].
    destruct (order_key R output q it) as [k|] eqn:E; [|discriminate]. cbn [bind] in K. destruct (order_keys R output q l) as [r|]; [|discriminate]. cbn [bind] in K. injection K as <-.
    constructor; [|apply IH; reflexivity]. destruct it; [|exact Logic.I]. cbn [order_key] in E. injection E as <-. reflexivity. }
  destruct (length (map fst (filter snd ks)) <? length (map fst ks))%nat eqn:L in H.
  - exfalso. destruct (s_schema R output q); [destruct (forallb _ _) in H|]; discriminate.
  - apply Nat.ltb_ge in L. rewrite !map_length in L. destruct (filter_all _ snd ks L) as [_ All].
    clear - F I All. induction F as [|it k l ks X F IH]; [destruct I|]. destruct I as [->|I].
    + rewrite <- X. apply All. left. reflexivity.
    + apply IH; [exact I|]. intros x Hx. apply All. right. exact Hx.
Qed.

Lemma no_limit_any : forall R (q : select R output) k, compile_select R output q = Ok k -> has_aggregates _ _ q = true -> t_limit k = 0.
Proof.
  intros R q k H A. unfold compile_select in H. destruct (compile_order R output q) as [op|]; [|discriminate]. cbn [bind] in H.
  destruct (compile_limit R output q (snd op)) as [p l] eqn:L. destruct (select_kind R output q); [|discriminate]. injection H as <-. cbn [t_limit].
  unfold compile_limit in L. rewrite A in L. rewrite !orb_true_r in L. cbn [orb] in L. destruct (_ || _); congruence.
Qed.

Section Core.
Variable frepr : spec_float -> text.
Variable ident : val -> val -> bool.
Variable ext : text -> option (list val -> val).
Variable lib : text -> list val -> val.
Variable tt : text -> bool.
Variable str_of : val -> text.
Variable pick : list row -> row.
Variable nested : text -> row -> val.
Variable raw : list (text * state) -> val.
Variable state_name : path -> text.
Variable leK : val -> val -> bool.
Hypothesis NN : ext (t "neg") = None.
Hypothesis TK : total_preorder leK.
Hypothesis EQ : forall a b, pyeq a b = true -> leK a b = true /\ leK b a = true.
Hypothesis HP : forall rs, rs <> [] -> In (pick rs) rs.
Hypothesis INJ : forall p q, state_name p = state_name q -> p = q.
Notation fn := (sql_fn frepr ident ext lib).

(** The rows of the source, and how they are read by the select list and by the sort of the source. *)
Variable R : Type.
Variable vw : R -> row.
Variable src_field : text -> R -> val.

Lemma grouped_core : forall st cfg (q : select R output) good o p,
  plain_written (mkwritten (st_items st) (st_group st)) -> (forall p alias e, In (alias, e) (st_items st) -> ~ mentions (state_name p) e) ->
  compile_written state_name frepr ident ext (mkwritten (st_items st) (st_group st)) = Ok cfg -> st_where st = None ->
  (forall l, keep (s_having _ _ q) l = filter (fun o => holds tt fn (st_having st) (column o)) l) ->
  s_order _ _ q = map (fun nd => OCol [] (fst nd) (snd nd)) (st_order st) ->
  (forall n d, In (n, d) (st_order st) -> pushed _ _ q [] n = true ->
     exists m b, In (n, ECol m) (st_items st) /\ In (KeyCol b m) (st_group st) /\ forall x, src_field n x = vw x m) ->
  compile_order _ _ q = Ok (o, p) ->
  summable_groups tt fn equal_keys st (map vw good) ->
  exists grows, Group_Model.run_query frepr ident ext lib str_of pick nested raw cfg (map vw (sort (le_by val leK src_field o) good)) = Ok grows /\
    grouped_result tt fn str_of leK equal_keys st (map vw good)
      (paged (st_limit st) (st_offset st) (fold_left (apply_pipeline output val leK field) p (keep (s_having _ _ q) grows))).
Proof.
  intros st cfg q good o p PWr FR C W0 HK SO Pushed OC SG.
  set (w := mkwritten (st_items st) (st_group st)) in *.
  destruct (aggregates_anywhere frepr ident ext lib tt str_of pick nested raw state_name NN HP INJ w PWr FR) as (cfg' & C' & Q). rewrite C in C'. injection C' as <-.
  pose proof PWr as (ND & _). cbn [w w_items] in ND.
  set (sorted := sort (le_by val leK src_field o) good). set (rows := map vw sorted).
  assert (W1 : forall l, filter (holds tt fn (st_where st)) l = l).
  { intros l. rewrite W0. induction l as [|x l IH]; [reflexivity|]. cbn [filter holds]. rewrite IH. reflexivity. }
  assert (PS : Permutation good sorted) by apply sort_perm.
  assert (PR : Permutation (map vw good) rows) by (apply Permutation_map; exact PS).
  unfold summable_groups in SG. cbv zeta in SG. rewrite W1 in SG.
  assert (KM : forall r rs, members equal_keys (map (fun r => (written_key (sem tt fn) w r, r)) rs) (key_of tt fn st r) = filter (fun x => equal_keys (key_of tt fn st r) (key_of tt fn st x)) rs)
    by (intros r rs; apply (keyed_members _ _ equal_keys (written_key (sem tt fn) w))).
  destruct (Q rows) as (grows & RQ & FG).
  { apply Forall_forall. intros r I. apply (SG r). eapply Permutation_in; [symmetry; exact PR|exact I]. }
  { intros k alias e x a Ik Ie P A. destruct (keyed_firsts _ _ equal_keys (written_key (sem tt fn) w) rows []) as (firsts & S & E).
    assert (Ik' : In k (map (written_key (sem tt fn) w) firsts)) by (rewrite E; exact Ik).
    apply in_map_iff in Ik' as (r & <- & Ir). assert (Ig : In r (map vw good)) by (eapply Permutation_in; [symmetry; exact PR|eapply sublist_in; eassumption]).
    change (written_key (sem tt fn) w r) with (key_of tt fn st r). rewrite KM. eapply summable_perm; [|exact (proj2 (SG r Ig) alias e x a Ie P A)].
    apply Permutation_map. apply filter_perm. exact PR. }
  change (Forall2 _ _ grows) with (group_rows tt fn str_of equal_keys st rows grows) in FG.
  exists grows. split; [exact RQ|].
  exists rows, grows, (fold_left (apply_pipeline output val leK field) p (keep (s_having _ _ q) grows)).
  rewrite !W1. split; [exact PR|]. split; [exact FG|]. rewrite HK.
  set (sel := filter (fun o => holds tt fn (st_having st) (column o)) grows).
  set (key := fun it (r : R) => match it with OCol _ n _ => src_field n r | OExp _ _ _ => VNone end).
  set (key_out := fun it (x : output) => match it with OCol _ n _ => field n x | OExp _ _ _ => VNone end).
  assert (Exps : forall sql lsql d, ~ In (OExp sql lsql d) (s_order _ _ q)).
  { intros sql lsql d I. rewrite SO in I. apply in_map_iff in I as (? & E & _). discriminate E. }
  assert (OL : forall x y, order_le val leK key_out (s_order _ _ q) x y = lex_le leK (map (fun nd => ((fun o => column o (fst nd)), snd nd)) (st_order st)) x y).
  { intros x y. unfold order_le. rewrite SO, map_map. reflexivity. }
  assert (None_ : st_order st = [] -> o = [] /\ p = []).
  { intros E. unfold compile_order in OC. rewrite SO, E in OC. cbn in OC. injection OC as <- <-. split; reflexivity. }
  destruct (order_cases R output val leK src_field field (fun _ => []) (fun _ => []) (fun _ => []) (fun _ => []) key output q field key_out o p OC) as [[-> Le]|(ks & k' & -> & Lo & _)].
  - intros tb n d _ _ r. reflexivity.
  - intros schema _. split; [intros tb n d _ _ x; reflexivity|intros sql lsql d I; destruct (Exps _ _ _ I)].
  - cbn [fold_left]. split; [reflexivity|]. split; [|split; [|reflexivity]].
    + apply (sublist_sorted _ _ _ grows); [apply sublist_filter|].
      destruct (keyed_firsts _ _ equal_keys (fun x => written_key (sem tt fn) w (vw x)) sorted []) as (firsts & S & E).
      assert (SF : StronglySorted (fun x y => order_le val leK key (s_order _ _ q) x y = true) firsts).
      { eapply sublist_sorted; [exact S|]. unfold sorted. rewrite (sort_ext _ _ (order_le val leK key (s_order _ _ q)) _ Le). apply sort_sorted, order_le_total. exact TK. }
      unfold group_rows in FG. cbv zeta in FG. unfold keys in FG. change (key_of tt fn st) with (written_key (sem tt fn) w) in FG.
      assert (Ek : keys_from equal_keys [] (map (fun r => (written_key (sem tt fn) w r, r)) rows) = map (fun x => written_key (sem tt fn) w (vw x)) firsts).
      { rewrite E. unfold rows. generalize (@nil (list val)). generalize sorted. clear. intros l. induction l as [|x l IH]; intros seen; [reflexivity|]. cbn [map keys_from fst]. destruct (existsb _ _); rewrite IH; reflexivity. }
      rewrite Ek in FG. rewrite Forall2_map_l in FG.
      eapply sorted_related; [|exact FG|exact SF]. cbn beta. intros a x b y (ra & Ia & Fa) (rb & Ib & Fb) Lab. rewrite <- Lab. rewrite <- OL. unfold order_le. rewrite SO, !map_map.
      symmetry. unfold key, key_out. cbn [descending].
      assert (Equi : forall n d r0 r z, In (n, d) (st_order st) ->
          In r (members equal_keys (map (fun r => (written_key (sem tt fn) w r, r)) rows) (written_key (sem tt fn) w (vw r0))) ->
          Forall2 (fun ne nv => fst nv = fst ne /\ expression_value str_of (sem tt fn) (members equal_keys (map (fun r => (written_key (sem tt fn) w r, r)) rows) (written_key (sem tt fn) w (vw r0))) r (snd ne) (snd nv)) (st_items st) z ->
          leK (src_field n r0) (field n z) = true /\ leK (field n z) (src_field n r0) = true).
      { intros n d r0 r z In_ Ir Fz. assert (Pn : pushed _ _ q [] n = true).
        { apply (order_pushed_any R q o OC [] n d). rewrite SO. apply in_map_iff. exists (n, d). split; [reflexivity|exact In_]. }
        destruct (Pushed n d In_ Pn) as (m & qb & Ii & Ig & Ev). pose proof (item_field _ _ _ n (ECol m) ND Ii Fz) as V. destruct V as (e' & Fe & Vz). rewrite Vz.
        assert (Ee : e' = ECol m) by (inversion Fe; subst; [discriminate|reflexivity]). rewrite Ee. cbn [sem]. rewrite Ev.
        change (written_key (sem tt fn) w (vw r0)) with (key_of tt fn st (vw r0)) in Ir. rewrite KM in Ir. apply filter_In in Ir. destruct Ir as [_ Ir]. apply EQ. unfold key_of in Ir.
        exact (equal_keys_at _ (group_value (sem tt fn) (vw r0)) (group_value (sem tt fn) r) _ _ Ig Ir). }
      pose proof (lex_equivalent R output val leK TK (map (fun nd : text * bool => (((fun r : R => src_field (fst nd) r), (fun x : output => field (fst nd) x)), snd nd)) (st_order st)) a b x y) as LE.
      rewrite !map_map in LE. cbn [fst snd] in LE. apply LE. intros f g d I. apply in_map_iff in I as ([n d'] & E' & I). injection E' as <- <- <-. cbn [fst].
      destruct (Equi n d' a ra x I Ia Fa) as [X1 X2]. destruct (Equi n d' b rb y I Ib Fb) as [Y1 Y2]. auto.
    + intros E0. destruct (None_ E0) as [E1 _]. split; [|reflexivity]. unfold rows, sorted. f_equal. rewrite E1.
      generalize good. intros l. clear. induction l as [|x l IH]; [reflexivity|]. unfold sort in *. cbn [fold_right]. rewrite IH. destruct l; reflexivity.
  - cbn [fold_left apply_pipeline]. rewrite (sort_ext _ _ _ _ Lo). split; [apply sort_perm|]. split; [|split; [|reflexivity]].
    + assert (S0 : StronglySorted (fun x y => order_le val leK key_out (s_order _ _ q) x y = true) (sort (order_le val leK key_out (s_order _ _ q)) sel)) by (apply sort_sorted, order_le_total; exact TK).
      eapply sorted_weaken; [|exact S0]. intros x y L. rewrite <- OL. exact L.
    + intros E0. destruct (None_ E0) as [_ X]. discriminate X.
Qed.
End Core.

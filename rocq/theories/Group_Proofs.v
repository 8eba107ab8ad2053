From Coq Require Import SpecFloat.
From Verif Require Import Base PyVal Utils_Model Calc_Model Calc_Proofs Agg_Model Agg_Spec Agg_Proofs Agg_Props Reduce_Spec Json_Proofs Config_Sets Union_Proofs
  Expr_Syntax Expr_Model Expr_Spec Expr_Proofs Expr_Props Having_Spec Having_Model Having_Proofs Group_Syntax Cast_Syntax Group_Model Group_Spec.
Open Scope Z_scope.

(** ** The value of an expression depends only on the columns it mentions *)
Lemma sem_ext : forall tt fn e r r', (forall n, mentions n e -> r n = r' n) -> sem tt fn r e = sem tt fn r' e.
Proof.
  intros tt fn e r r' H.
  assert (K : forall n, In n (columns e) -> r n = r' n) by (intros n I; apply H; apply columns_mentions; exact I). clear H.
  revert K.
  induction e as [v|m|a IHa|a IHa|a IHa|a b IHa IHb|a b IHa IHb|a b IHa IHb|k a b IHa IHb|a l IHa IHl|a lo hi IHa IHlo IHhi
                 |c a f IHc IHa IHf|a b IHa IHb|a l IHa IHl|o ifs els IHo IHifs IHels|k l IHl] using expr_induction; intros K; cbn [columns] in K; cbn [sem].
  all: try (assert (ML : map (sem tt fn r) l = map (sem tt fn r') l)
              by (apply map_ext_in; intros x I; rewrite Forall_forall in IHl; apply (IHl x I); intros n J; apply K; rewrite ?in_app_iff; try right; apply in_flat_map; exists x; split; assumption)).
  all: try rewrite IHa by (intros n I; apply K; rewrite ?in_app_iff; tauto).
  all: try rewrite IHb by (intros n I; apply K; rewrite ?in_app_iff; tauto).
  all: try reflexivity.
  - apply K. left. reflexivity.
  - f_equal. f_equal. apply map_ext_in. intros y I. rewrite Forall_forall in IHl. rewrite (IHl y I); [reflexivity|].
    intros n J. apply K. rewrite in_app_iff. right. apply in_flat_map. exists y. split; assumption.
  - rewrite IHlo, IHhi by (intros n I; apply K; rewrite ?in_app_iff; tauto). reflexivity.
  - rewrite IHc by (intros n I; apply K; rewrite ?in_app_iff; tauto). destruct f as [f|]; [|reflexivity]. cbn [opt_all] in IHf.
    rewrite IHf by (intros n I; apply K; rewrite ?in_app_iff; tauto). reflexivity.
  - rewrite ML. reflexivity.
  - assert (E : forall els', els = Some els' -> sem tt fn r els' = sem tt fn r' els').
    { intros x ->. apply IHels. intros n I. apply K. rewrite !in_app_iff. tauto. }
    assert (O : forall o', o = Some o' -> sem tt fn r o' = sem tt fn r' o').
    { intros x ->. apply IHo. intros n I. apply K. rewrite !in_app_iff. tauto. }
    assert (M : forall w x, In (w, x) ifs -> sem tt fn r w = sem tt fn r' w /\ sem tt fn r x = sem tt fn r' x).
    { intros w x I. rewrite Forall_forall in IHifs. destruct (IHifs _ I) as [A B]. cbn [fst snd] in *.
      split; [apply A|apply B]; intros n J; apply K; rewrite !in_app_iff; right; right; apply in_flat_map; exists (w, x); split; auto; cbn [fst snd]; rewrite in_app_iff; tauto. }
    f_equal.
    + apply map_ext_in. intros [w x] I. destruct (M w x I) as [A B]. cbn [fst snd]. rewrite A, B. destruct o as [o|]; [|reflexivity]. rewrite (O o eq_refl). reflexivity.
    + destruct els as [x|]; [apply E; reflexivity|reflexivity].
  - rewrite ML. reflexivity.
Qed.

(** ** Grouping *)
Lemma same_sym : forall a b, same_key a b = same_key b a.
Proof. induction a as [|x a IH]; intros [|y b]; try reflexivity. cbn [same_key]. rewrite IH, pyeq_sym. reflexivity. Qed.
Lemma same_trans : forall a b c, same_key a b = true -> same_key b c = true -> same_key a c = true.
Proof.
  induction a as [|x a IH]; intros [|y b] [|z c] H1 H2; try discriminate; auto. cbn [same_key] in *.
  apply andb_prop in H1, H2. destruct H1, H2. apply andb_true_intro. split; [eapply pyeq_trans; eauto|eapply IH; eauto].
Qed.

Section Groups.
Variable f : row -> list val.
Definition sm (a b : row) : bool := same_key (f a) (f b).
(** The first row of each group. *)
Fixpoint firsts (seen : list row) (rows : list row) : list row :=
  match rows with
  | [] => []
  | r :: rs => if existsb (fun s => sm s r) seen then firsts seen rs else r :: firsts (seen ++ [r]) rs
  end.
Definition grouped (rows : list row) : list (list val * list row) := fold_left (fun g r => add_row (f r) r g) rows [].

Lemma firsts_snoc : forall rows seen x,
  firsts seen (rows ++ [x]) = firsts seen rows ++ (if existsb (fun s => sm s x) (seen ++ firsts seen rows) then [] else [x]).
Proof.
  induction rows as [|r rows IH]; intros seen x; cbn [app firsts].
  - rewrite app_nil_r. destruct (existsb (fun s => sm s x) seen); reflexivity.
  - destruct (existsb (fun s => sm s r) seen) eqn:E; [apply IH|]. cbn [app]. f_equal. rewrite IH, <- app_assoc. reflexivity.
Qed.
Lemma add_row_miss : forall (F : row -> list row) x l, existsb (fun s => sm s x) l = false ->
  add_row (f x) x (map (fun r => (f r, F r)) l) = map (fun r => (f r, F r)) l ++ [(f x, [x])].
Proof.
  intros F x. induction l as [|r l IH]; intros H; [reflexivity|]. cbn [existsb] in H. apply orb_false_elim in H. destruct H as [H1 H2].
  cbn [map add_row]. unfold sm in H1. rewrite H1, IH by exact H2. reflexivity.
Qed.
Lemma add_row_hit : forall (F : row -> list row) x l, existsb (fun s => sm s x) l = true -> ForallOrdPairs (fun a b => sm a b = false) l ->
  add_row (f x) x (map (fun r => (f r, F r)) l) = map (fun r => (f r, F r ++ (if sm r x then [x] else []))) l.
Proof.
  intros F x. induction l as [|r l IH]; intros H P; [discriminate|]. inversion P as [|? ? P1 P2]; subst. cbn [existsb] in H.
  cbn [map add_row]. change (same_key (f r) (f x)) with (sm r x). destruct (sm r x) eqn:E.
  - f_equal. apply map_ext_in. intros y I. rewrite Forall_forall in P1. specialize (P1 y I).
    destruct (sm y x) eqn:Q; [|rewrite app_nil_r; reflexivity].
    exfalso. assert (sm r y = true); [|congruence]. unfold sm in *. eapply same_trans; [exact E|]. rewrite same_sym. exact Q.
  - rewrite app_nil_r. f_equal. apply IH; [exact H|exact P2].
Qed.
Lemma ordpairs_snoc : forall A (P : A -> A -> Prop) l x, ForallOrdPairs P l -> Forall (fun y => P y x) l -> ForallOrdPairs P (l ++ [x]).
Proof.
  intros A P l x H. induction H as [|y l H1 H2 IH]; intros F; cbn [app]; [constructor; constructor|].
  inversion F; subst. constructor; [apply Forall_app; split; [exact H1|constructor; [assumption|constructor]]|apply IH; assumption].
Qed.
Lemma existsb_false_Forall : forall A (p : A -> bool) l, existsb p l = false -> Forall (fun x => p x = false) l.
Proof. intros A p l. induction l as [|x l IH]; intros H; constructor; cbn [existsb] in H; apply orb_false_elim in H; [apply H|apply IH, H]. Qed.
Lemma firsts_incl : forall rows seen r, In r (firsts seen rows) -> In r rows.
Proof.
  induction rows as [|x rows IH]; intros seen r I; [exact I|]. cbn [firsts] in I. destruct (existsb _ seen); [right; eapply IH; exact I|].
  destruct I as [->|I]; [left; reflexivity|right; eapply IH; exact I].
Qed.
Lemma grouped_spec : forall rows, Forall (fun r => sm r r = true) rows ->
  grouped rows = map (fun r => (f r, filter (fun x => sm r x) rows)) (firsts [] rows) /\
  ForallOrdPairs (fun a b => sm a b = false) (firsts [] rows).
Proof.
  induction rows as [|x rows IH] using rev_ind; intros R; [split; [reflexivity|constructor]|].
  apply Forall_app in R. destruct R as [R Rx]. apply Forall_inv in Rx. destruct (IH R) as [E P]. unfold grouped in *. rewrite fold_left_app. cbn [fold_left]. rewrite E.
  rewrite firsts_snoc. cbn [app]. destruct (existsb (fun s => sm s x) (firsts [] rows)) eqn:H.
  - rewrite app_nil_r. split; [|exact P]. rewrite add_row_hit by assumption. apply map_ext_in. intros r _. rewrite filter_app. cbn [filter]. destruct (sm r x); reflexivity.
  - split.
    + rewrite add_row_miss by assumption. rewrite map_app. cbn [map]. apply existsb_false_Forall in H. f_equal.
      * apply map_ext_in. intros r I. rewrite filter_app. cbn [filter]. rewrite Forall_forall in H. rewrite (H r I). rewrite app_nil_r. reflexivity.
      * f_equal. f_equal. rewrite filter_app. cbn [filter]. rewrite Rx.
        assert (filter (fun y => sm x y) rows = []) as ->; [|reflexivity].
        destruct (filter (fun y => sm x y) rows) as [|y l] eqn:F; [reflexivity|]. exfalso.
        assert (I : In y (filter (fun y => sm x y) rows)) by (rewrite F; left; reflexivity). apply filter_In in I. destruct I as [I Q].
        (* y is in the group of some first row *)
        assert (C : forall rws seen, Forall (fun r => sm r r = true) rws -> In y rws -> exists r, In r (seen ++ firsts seen rws) /\ sm r y = true).
        { clear. induction rws as [|z rws IH]; intros seen R I; [destruct I|]. inversion R as [|? ? Rz R']; subst. cbn [firsts].
          destruct I as [->|I].
          - destruct (existsb (fun s => sm s y) seen) eqn:E.
            + apply existsb_exists in E. destruct E as (s & Is & Es). exists s. split; [apply in_app_iff; left; exact Is|exact Es].
            + exists y. split; [apply in_app_iff; right; left; reflexivity|exact Rz].
          - destruct (existsb (fun s => sm s z) seen); [apply IH; assumption|].
            destruct (IH (seen ++ [z]) R' I) as (r & Ir & Er). exists r. split; [|exact Er]. rewrite <- app_assoc in Ir. exact Ir. }
        destruct (C rows [] R I) as (r & Ir & Er). cbn [app] in Ir. rewrite Forall_forall in H. specialize (H r Ir).
        assert (sm r x = true); [|congruence]. unfold sm in *. eapply same_trans; [exact Er|]. rewrite same_sym. exact Q.
    + apply ordpairs_snoc; [exact P|]. apply existsb_false_Forall. exact H.
Qed.
End Groups.

Lemma firsts_keys : forall f same seen rows, (forall a b, sm f a b = same (f a) (f b)) ->
  map f (firsts f seen rows) = keys_from same (map f seen) (map (fun r => (f r, r)) rows).
Proof.
  intros f same seen rows H. revert seen. induction rows as [|r rows IH]; intros seen; [reflexivity|]. cbn [firsts map keys_from].
  assert (existsb (fun k' => same k' (f r)) (map f seen) = existsb (fun s => sm f s r) seen) as ->.
  { induction seen as [|s seen IHs]; [reflexivity|]. cbn [map existsb]. rewrite IHs, H. reflexivity. }
  destruct (existsb _ seen); [apply IH|]. cbn [map]. f_equal. rewrite IH, map_app. reflexivity.
Qed.

(** ** Aggregates *)
Lemma run_wrap : forall A V S (w : A -> S) (g : A -> V -> res A) (h : S -> V -> res S),
  (forall s v, h (w s) v = (do y <- g s v; Ok (w y))) ->
  forall xs s, run h (w s) xs = (do y <- run g s xs; Ok (w y)).
Proof.
  intros A V S w g h H. induction xs as [|x xs IH]; intros s; [reflexivity|]. cbn [run]. rewrite H. destruct (g s x) as [y|e]; cbn [bind]; [apply IH|reflexivity].
Qed.
Lemma nonnull_all : forall xs, ~ In VNone xs -> nonnull xs = xs.
Proof.
  induction xs as [|x xs IH]; intros H; [reflexivity|]. cbn [nonnull filter]. destruct x; try (f_equal; apply IH; intros I; apply H; right; exact I).
  exfalso. apply H. left. reflexivity.
Qed.
Lemma sums_nonempty : forall xs, nonnull xs <> [] -> xs <> [].
Proof. intros [|x xs] H; [exact H|discriminate]. Qed.

Lemma aggregate_run : forall str_of a c xs, calculater_of a = Ok c -> xs <> [] -> summable (a_fun a) (a_distinct a) xs ->
  exists s v, run (step str_of c) (init c) xs = Ok s /\ final_value c s = Ok v /\ aggregate_value str_of (a_fun a) (a_distinct a) xs v.
Proof.
  intros so a c xs Hc Ne S. unfold calculater_of in Hc.
  destruct (a_fun a), (a_distinct a); try discriminate; injection Hc as <-; cbn [summable] in S; cbn [init final_value].
  - destruct (count_distinct_correct xs S) as (st & E & D & L).
    exists (SSet st). eexists. split; [rewrite (run_wrap _ _ _ SSet set_agg) by reflexivity; rewrite E; reflexivity|]. split; [reflexivity|].
    rewrite L. apply A_count_distinct. exact D.
  - exists (SVal (VInt (Z.of_nat (length (nonnull xs))))). eexists.
    split; [rewrite (run_wrap _ _ _ SVal count_agg) by reflexivity; rewrite count_correct by exact Ne; reflexivity|]. split; [reflexivity|]. apply A_count.
  - destruct S as [N [z Hz]]. exists (SVal (VInt z)). eexists.
    split; [rewrite (run_wrap _ _ _ SVal sum_agg) by reflexivity; rewrite (sum_correct xs z Ne Hz); reflexivity|]. split; [reflexivity|]. apply A_sum; assumption.
  - destruct (min_correct so xs S) as (m & E & L). exists (SVal m). eexists.
    split; [rewrite (run_wrap _ _ _ SVal (min_agg so)) by reflexivity; rewrite E; reflexivity|]. split; [reflexivity|]. apply A_min. exact L.
  - destruct (max_correct so xs S) as (m & E & L). exists (SVal m). eexists.
    split; [rewrite (run_wrap _ _ _ SVal (max_agg so)) by reflexivity; rewrite E; reflexivity|]. split; [reflexivity|]. apply A_max. exact L.
  - destruct S as (N & z & v & Hz & Hv). destruct (avg_correct xs z Ne N Hz) as (st & E & F).
    rewrite nonnull_all in Hv by exact N. rewrite Hv in F.
    exists (SAvg st), v. split; [rewrite (run_wrap _ _ _ SAvg avg_agg) by reflexivity; rewrite E; reflexivity|]. split; [exact F|].
    apply (A_avg so xs z v); rewrite ?nonnull_all by exact N; assumption.
  - destruct (group_concat_correct so xs) as (st & E & C). exists (SList st). eexists.
    split; [rewrite (run_wrap _ _ _ SList (concat_agg so)) by reflexivity; rewrite E; reflexivity|]. split; [reflexivity|]. apply A_concat; assumption.
Qed.

Lemma dict_set_fresh : forall A k (v : A) d, ~ In k (map fst d) -> dict_set k v d = d ++ [(k, v)].
Proof.
  intros A k v. induction d as [|[k' v'] d IH]; intros H; [reflexivity|]. cbn [dict_set map fst] in *.
  destruct (text_eqb k k') eqn:E; [apply text_eqb_spec in E; subst; exfalso; apply H; left; reflexivity|].
  cbn [app]. f_equal. apply IH. intros I. apply H. right. exact I.
Qed.


Lemma assoc_pair : forall A k (m : list (text * A)) v, assoc k m = Some v -> In (k, v) m.
Proof.
  intros A k. induction m as [|[k' v'] m IH]; intros v H; [discriminate|]. cbn [assoc] in H.
  destruct (text_eqb k k') eqn:E; [apply text_eqb_spec in E; subst; injection H as ->; left; reflexivity|right; apply IH; exact H].
Qed.
Lemma assoc_nodup : forall A k (m : list (text * A)) v, NoDup (map fst m) -> In (k, v) m -> assoc k m = Some v.
Proof.
  intros A k. induction m as [|[k' v'] m IH]; intros v N I; [destruct I|]. cbn [assoc map fst] in *. inversion N as [|? ? N1 N2]; subst.
  destruct I as [E|I]; [injection E as -> ->; rewrite text_eqb_refl; reflexivity|].
  destruct (text_eqb k k') eqn:E; [|apply IH; assumption]. apply text_eqb_spec in E. subst. exfalso. apply N1. apply (in_map fst) in I. exact I.
Qed.

(** ** Compilation *)
Definition calc (a : aggregate) : calculater := match calculater_of a with Ok c => c | Err _ => CCount end.
Lemma calc_ok : forall a, plain_aggregate a -> calculater_of a = Ok (calc a).
Proof.
  intros [f d x] (D & _). unfold calc, calculater_of. cbn [a_fun a_distinct] in *.
  destruct f, d; try reflexivity; discriminate (D eq_refl).
Qed.

Section Compile.
Variable frepr : spec_float -> text.
Variable ident : val -> val -> bool.
Variable ext : text -> option (list val -> val).
Variable lib : text -> list val -> val.

Definition gcol_of (i : item) : gcol :=
  match i with
  | IConst v => GPlain (QConst v)
  | ICol n => GPlain (QCol n)
  | ICalc e => GPlain (compile frepr ident ext e)
  | _ => GAggr
  end.
Definition part_of (na : text * aggregate) : text * (calculater * valuer) :=
  (fst na, (calc (snd na), compile_value frepr ident ext (snd na))).
Definition canon (k : group_item) : key :=
  match k with KeyCol _ n => KCol (QCol n) | KeyExp e => KCol (compile frepr ident ext e) end.
Definition canons (group : list group_item) : list key :=
  match group with [] => [KCol (QConst (VStr (t "__k_g__")))] | _ => map canon group end.
Definition acol_of (group : list group_item) (i : item) : list acol :=
  match i with
  | IAgg a => [mkacol (canons group) [part_of ([], a)] (if has_final (calc a) then Some FPart else None)]
  | IExpr e holes => [mkacol (canons group) (map part_of holes) (Some (FExpr (compile frepr ident ext e)))]
  | _ => []
  end.
Definition schema_of (l : list (text * item)) : list (text * gcol) := map (fun ai => (fst ai, gcol_of (snd ai))) l.
Definition aggs_of (group : list group_item) (l : list (text * item)) : list (text * acol) :=
  flat_map (fun ai => map (fun a => (fst ai, a)) (acol_of group (snd ai))) l.

Lemma compile_parts_ok : forall l, Forall (fun na => plain_aggregate (snd na)) l ->
  compile_parts frepr ident ext l = Ok (map part_of l).
Proof.
  intros l H. induction H as [|[n a] l H H' IH]; [reflexivity|]. cbn [compile_parts map]. unfold compile_part. cbn [fst snd] in *.
  rewrite (calc_ok a H). cbn [bind]. rewrite IH. reflexivity.
Qed.
Lemma schema_of_fst : forall l, map fst (schema_of l) = map fst l.
Proof. intros l. unfold schema_of. rewrite map_map. apply map_ext. reflexivity. Qed.
Lemma aggs_of_fst : forall group l n, In n (map fst (aggs_of group l)) -> In n (map fst l).
Proof.
  intros group l n I. apply in_map_iff in I as ([m a] & <- & I). apply in_flat_map in I as ([k i] & Ik & Ia). cbn [fst snd] in Ia.
  apply in_map_iff in Ia as (b & E & _). injection E as -> ->. apply (in_map fst) in Ik. exact Ik.
Qed.
Lemma keys_canon : forall group done, Forall (plain_key done) group -> compile_keys frepr ident ext (schema_of done) group = canons group.
Proof.
  intros group done H. unfold compile_keys, canons.
  assert (E : map (compile_key frepr ident ext (schema_of done)) group = map canon group).
  { apply map_ext_in. intros k I. rewrite Forall_forall in H. specialize (H k I). destruct k as [q n|e].
    2: { cbn [compile_key canon plain_key] in *. destruct (cast_column e) as [n|] eqn:C; [|reflexivity]. destruct (assoc n (schema_of done)) as [g|] eqn:A; [|reflexivity].
         exfalso. apply (proj2 H n eq_refl). apply assoc_pair in A. apply (in_map fst) in A. rewrite schema_of_fst in A. exact A. }
    cbn [compile_key canon]. destruct q; [reflexivity|]. cbn [plain_key] in H.
    destruct (assoc n (schema_of done)) as [g|] eqn:A; [|reflexivity].
    apply assoc_pair in A. unfold schema_of in A. apply in_map_iff in A as ([m i] & E & Ii). cbn [fst snd] in E. injection E as -> <-.
    rewrite (H i Ii). reflexivity. }
  destruct group; [reflexivity|exact E].
Qed.

Definition is_agg (i : item) : bool := match i with IAgg _ | IExpr _ _ => true | _ => false end.

Lemma compile_items_ok : forall group l done key,
  NoDup (map fst (done ++ l)) -> Forall (plain_key (done ++ l)) group -> Forall (fun ai => plain_item (done ++ l) (snd ai)) l ->
  compile_items frepr ident ext group (mkconfig (schema_of done) (aggs_of group done) key) l =
    Ok (mkconfig (schema_of (done ++ l)) (aggs_of group (done ++ l)) (if existsb (fun ai => is_agg (snd ai)) l then canons group else key)).
Proof.
  intros group. induction l as [|[alias i] l IH]; intros done key N G P.
  - cbn [compile_items existsb]. rewrite app_nil_r. reflexivity.
  - assert (Q : done ++ (alias, i) :: l = (done ++ [(alias, i)]) ++ l) by (rewrite <- app_assoc; reflexivity).
    cbn [compile_items]. inversion P as [|? ? Pi P']; subst. cbn [snd] in Pi.
    assert (F : ~ In alias (map fst done)).
    { rewrite map_app in N. cbn [map fst] in N. apply NoDup_remove_2 in N. intros I. apply N. apply in_app_iff. left. exact I. }
    assert (Fa : ~ In alias (map fst (aggs_of group done))) by (intros I; apply F; eapply aggs_of_fst; exact I).
    assert (S : schema_of done ++ [(alias, gcol_of i)] = schema_of (done ++ [(alias, i)])) by (unfold schema_of; rewrite map_app; reflexivity).
    assert (Ga : Forall (plain_key done) group).
    { rewrite Forall_forall in *. intros k I. specialize (G k I). destruct k as [[] n|e]; cbn [plain_key] in *; auto.
      - intros j Ij. apply G. apply in_app_iff. left. exact Ij.
      - split; [exact (proj1 G)|]. intros n C J. apply (proj2 G n C). rewrite map_app. apply in_app_iff. left. exact J. }
    assert (K : compile_item frepr ident ext group (mkconfig (schema_of done) (aggs_of group done) key) alias i =
      Ok (mkconfig (schema_of (done ++ [(alias, i)])) (aggs_of group (done ++ [(alias, i)])) (if is_agg i then canons group else key))).
    { assert (A : aggs_of group (done ++ [(alias, i)]) = aggs_of group done ++ map (fun a => (alias, a)) (acol_of group i))
        by (unfold aggs_of; rewrite flat_map_app; cbn [flat_map fst snd]; rewrite app_nil_r; reflexivity).
      rewrite A, <- S.
      destruct i as [v|n|e|a|e holes]; cbn [compile_item is_agg acol_of map gcol_of g_schema g_agg g_key];
        rewrite ?app_nil_r, ?dict_set_fresh by (rewrite ?schema_of_fst; assumption); try reflexivity.
      - unfold compile_aggregate_column. cbn [g_schema g_agg]. rewrite (keys_canon group done Ga).
        rewrite compile_parts_ok by (constructor; [exact Pi|constructor]). cbn [bind map existsb part_of fst snd].
        rewrite !dict_set_fresh by (rewrite ?schema_of_fst; assumption). rewrite orb_false_r. reflexivity.
      - unfold compile_aggregate_column. cbn [g_schema g_agg]. rewrite (keys_canon group done Ga).
        destruct Pi as (_ & _ & _ & Pa & _). rewrite compile_parts_ok by exact Pa. cbn [bind].
        rewrite !dict_set_fresh by (rewrite ?schema_of_fst; assumption). reflexivity. }
    rewrite K. cbn [bind]. rewrite Q in *. rewrite IH by assumption. cbn [existsb snd]. destruct (is_agg i); cbn [orb]; [|reflexivity].
    destruct (existsb _ l); reflexivity.
Qed.
End Compile.

(** ** Execution *)
Section Run.
Variable frepr : spec_float -> text.
Variable ident : val -> val -> bool.
Variable ext : text -> option (list val -> val).
Variable lib : text -> list val -> val.
Variable tt : text -> bool.
Hypothesis no_neg : ext (t "neg") = None.
Variable str_of : val -> text.
Variable pick : list row -> row.
Variable nested : text -> row -> val.
Variable raw : list (text * state) -> val.
Notation ev := (ev frepr ident ext lib).
Notation value := (sem tt (sql_fn frepr ident ext lib)).
Notation part_of := (part_of frepr ident ext).

Lemma values_ok : forall a rs, plain_aggregate a -> map (fun x => ev x (compile_value frepr ident ext a)) rs = argument value a rs.
Proof.
  intros a rs (_ & _ & X). unfold argument, compile_value. apply map_ext. intros r. destruct (a_arg a) as [e|] eqn:E; [|reflexivity].
  apply (compiled_value frepr ident ext lib tt no_neg e (X e eq_refl) r).
Qed.

Definition good (rs : list row) (a : aggregate) : Prop := plain_aggregate a /\ summable (a_fun a) (a_distinct a) (argument value a rs).

Lemma one_state : forall rs a, rs <> [] -> good rs a ->
  exists s v, run (step str_of (calc a)) (init (calc a)) (map (fun x => ev x (compile_value frepr ident ext a)) rs) = Ok s /\
    final_value (calc a) s = Ok v /\ aggregate_value str_of (a_fun a) (a_distinct a) (argument value a rs) v.
Proof.
  intros rs a Ne [P S]. rewrite (values_ok a rs P). apply aggregate_run; [apply calc_ok; exact P| |exact S].
  unfold argument. destruct rs; [congruence|discriminate].
Qed.

Lemma states_ok : forall rs l, rs <> [] -> Forall (fun h => good rs (snd h)) l ->
  exists ss vs, states frepr ident ext lib str_of (map part_of l) rs = Ok ss /\ finals (map part_of l) ss = Ok vs /\
    Forall2 (fun h v => fst v = fst h /\ aggregate_value str_of (a_fun (snd h)) (a_distinct (snd h)) (argument value (snd h) rs) (snd v)) l vs.
Proof.
  intros rs l Ne H. induction H as [|[n a] l H H' IH]; [exists [], []; repeat split; constructor|].
  cbn [fst snd] in H. destruct (one_state rs a Ne H) as (s & v & E & F & A). destruct IH as (ss & vs & E' & F' & A').
  exists ((n, s) :: ss), ((n, v) :: vs). cbn [map]. change (part_of (n, a)) with (n, (calc a, compile_value frepr ident ext a)). cbn [states finals].
  rewrite E, E', F, F'. cbn [bind]. repeat split. constructor; [|exact A']. cbn [fst snd]. split; [reflexivity|exact A].
Qed.

(** The cell of an item in a row of the first task. *)
Definition cell_ok (rs : list row) (ai : text * item) (nc : text * cell) : Prop :=
  fst nc = fst ai /\
  match snd ai with
  | IAgg a => exists s f v, snd nc = CStates [part_of ([], a)] [([], s)] f /\ f = (if has_final (calc a) then Some FPart else None) /\ final_value (calc a) s = Ok v /\
      aggregate_value str_of (a_fun a) (a_distinct a) (argument value a rs) v
  | IExpr e holes => exists ss vs, snd nc = CStates (map part_of holes) ss (Some (FExpr (compile frepr ident ext e))) /\
      finals (map part_of holes) ss = Ok vs /\
      Forall2 (fun h v => fst v = fst h /\ aggregate_value str_of (a_fun (snd h)) (a_distinct (snd h)) (argument value (snd h) rs) (snd v)) holes vs
  | i => match gcol_of frepr ident ext i with GPlain q => snd nc = CVal (ev (pick rs) q) | GAggr => False end
  end.

Lemma aggs_assoc : forall group l alias i, NoDup (map fst l) -> In (alias, i) l -> acol_of frepr ident ext group i <> [] ->
  assoc alias (aggs_of frepr ident ext group l) = hd_error (acol_of frepr ident ext group i).
Proof.
  intros group. induction l as [|[k j] l IH]; intros alias i N I Ne; [destruct I|].
  unfold aggs_of. cbn [flat_map fst snd map] in *. change (flat_map _ l) with (aggs_of frepr ident ext group l).
  inversion N as [|? ? N1 N2]; subst. destruct I as [E|I].
  - injection E as -> ->. destruct i; cbn [acol_of map app hd_error assoc] in *; try congruence; rewrite text_eqb_refl; reflexivity.
  - rewrite <- (IH alias i N2 I Ne).
    assert (F : text_eqb alias k = false) by (apply text_eqb_neq; intros ->; apply N1; apply (in_map fst) in I; exact I).
    destruct j; cbn [acol_of map app assoc]; rewrite ?F; reflexivity.
Qed.

Lemma first_row_ok : forall group items rs, rs <> [] -> NoDup (map fst items) ->
  forall l, incl l items -> Forall (fun ai => Forall (good rs) (aggregates (snd ai))) l ->
  forall key, exists cs, first_row frepr ident ext lib str_of pick (mkconfig (schema_of frepr ident ext items) (aggs_of frepr ident ext group items) key)
    (schema_of frepr ident ext l) rs = Ok cs /\ Forall2 (cell_ok rs) l cs.
Proof.
  intros group items rs Ne N l. induction l as [|[alias i] l IH]; intros S G key; [exists []; split; [reflexivity|constructor]|].
  inversion G as [|? ? Gi G']; subst. cbn [snd] in Gi.
  destruct (IH (fun x I => S x (or_intror I)) G' key) as (cs & E & F).
  assert (I : In (alias, i) items) by (apply S; left; reflexivity).
  assert (A : forall g, acol_of frepr ident ext group i <> [] -> hd_error (acol_of frepr ident ext group i) = Some g -> assoc alias (aggs_of frepr ident ext group items) = Some g)
    by (intros g Q H; rewrite (aggs_assoc group items alias i N I Q); exact H).
  change (schema_of frepr ident ext ((alias, i) :: l)) with ((alias, gcol_of frepr ident ext i) :: schema_of frepr ident ext l).
  destruct i as [v|n|e|a|e holes]; cbn [gcol_of first_row g_agg].
  1,2,3: (rewrite E; cbn [bind]; eexists; split; [reflexivity|]; constructor; [split; reflexivity|exact F]).
  - cbn [acol_of hd_error] in A. rewrite (A _ ltac:(discriminate) eq_refl). cbn [c_parts c_final]. change (part_of ([], a)) with (([] : text), (calc a, compile_value frepr ident ext a)). cbn [states].
    cbn [aggregates] in Gi. apply Forall_inv in Gi. destruct (one_state rs a Ne Gi) as (s & v & R & Fv & Av).
    rewrite R, E. cbn [bind]. eexists. split; [reflexivity|]. constructor; [|exact F]. split; [reflexivity|]. cbn [fst snd].
    exists s, (if has_final (calc a) then Some FPart else None), v. repeat split; auto.
  - cbn [acol_of hd_error] in A. rewrite (A _ ltac:(discriminate) eq_refl). cbn [c_parts c_final].
    cbn [aggregates] in Gi. rewrite Forall_map in Gi. destruct (states_ok rs holes Ne Gi) as (ss & vs & R & Fv & Av).
    rewrite R, E. cbn [bind]. eexists. split; [reflexivity|]. constructor; [|exact F]. split; [reflexivity|]. cbn [fst snd].
    exists ss, vs. repeat split; auto.
Qed.

Lemma cells_names : forall rs l cs, Forall2 (cell_ok rs) l cs -> map fst cs = map fst l.
Proof. intros rs l cs H. induction H as [|x y l cs H H' IH]; [reflexivity|]. cbn [map]. rewrite IH. destruct H as [-> _]. reflexivity. Qed.
Lemma cells_in : forall rs l cs alias i, Forall2 (cell_ok rs) l cs -> In (alias, i) l -> exists c, In (alias, c) cs /\ cell_ok rs (alias, i) (alias, c).
Proof.
  intros rs l cs alias i H. induction H as [|x [m c] l cs H H' IH]; intros I; [destruct I|]. destruct I as [->|I].
  - destruct H as [E H]. cbn [fst] in E. subst m. exists c. split; [left; reflexivity|split; [reflexivity|exact H]].
  - destruct (IH I) as (d & J & K). exists d. split; [right; exact J|exact K].
Qed.
Lemma holes_names : forall (P : text * aggregate -> text * val -> Prop) holes vs, Forall2 (fun h v => fst v = fst h /\ P h v) holes vs -> map fst vs = map fst holes.
Proof. intros P holes vs H. induction H as [|x y l cs H H' IH]; [reflexivity|]. cbn [map]. rewrite IH. destruct H as [-> _]. reflexivity. Qed.

Lemma out_row_ok : forall group items rs, rs <> [] -> NoDup (map fst items) -> Forall (fun ai => plain_item items (snd ai)) items ->
  Forall (fun ai => Forall (good rs) (aggregates (snd ai))) items ->
  forall key, exists o, out_row frepr ident ext lib str_of pick raw (mkconfig (schema_of frepr ident ext items) (aggs_of frepr ident ext group items) key) rs = Ok o /\
    Forall2 (fun ai nv => fst nv = fst ai /\ item_value str_of value rs (pick rs) (snd ai) (snd nv)) items o.
Proof.
  intros group items rs Ne N P G key. destruct (first_row_ok group items rs Ne N items (incl_refl items) G key) as (cs & E & F).
  unfold out_row. cbn [g_schema]. rewrite E. cbn [bind].
  assert (C : forall n, In (n, ICol n) items -> cell_row raw cs n = pick rs n).
  { intros n I. destruct (cells_in rs items cs n (ICol n) F I) as (c & Ic & _ & K). cbn [snd fst gcol_of] in K. unfold cell_row.
    rewrite (assoc_nodup _ n cs c); [rewrite K; reflexivity|rewrite (cells_names rs items cs F); exact N|exact Ic]. }
  assert (H : forall l ds, Forall2 (cell_ok rs) l ds -> Forall (fun ai => plain_item items (snd ai)) l ->
    exists o, second_row frepr ident ext lib raw cs ds = Ok o /\
      Forall2 (fun ai nv => fst nv = fst ai /\ item_value str_of value rs (pick rs) (snd ai) (snd nv)) l o).
  { clear E F. intros l ds F. induction F as [|[alias i] [m c] l ds K F IH]; intros Pl; [exists []; split; [reflexivity|constructor]|].
    inversion Pl as [|? ? Pi P']; subst. destruct (IH P') as (o & E & Fo). destruct K as [Em K]. cbn [fst snd] in *. subst m.
    assert (Q : exists v, second frepr ident ext lib raw cs c = Ok v /\ item_value str_of value rs (pick rs) i v).
    { destruct i as [v|n|e|a|e holes]; cbn [gcol_of] in K.
      - subst c. eexists. split; [reflexivity|]. apply V_const.
      - subst c. eexists. split; [reflexivity|]. apply (V_col str_of value rs (pick rs) n).
      - subst c. eexists. split; [reflexivity|]. rewrite (compiled_value frepr ident ext lib tt no_neg e Pi (pick rs)). apply V_calc.
      - destruct K as (s & f & v & -> & Hf & Fv & Av). exists v. split; [|apply V_agg; exact Av].
        cbn [second]. unfold Group_Proofs.part_of. cbn [fst snd]. subst f. destruct (calc a) eqn:Ec; cbn [has_final]; try exact Fv; destruct s; try discriminate Fv; exact Fv.
      - destruct K as (ss & vs & -> & Fv & Av). cbn [second]. rewrite Fv. cbn [bind]. eexists. split; [reflexivity|].
        destruct Pi as (Xe & _ & Nh & _ & M).
        rewrite (compiled_value frepr ident ext lib tt no_neg e Xe).
        erewrite sem_ext; [apply V_expr; exact Av|]. intros n Mn. cbn beta. destruct (assoc n vs) as [v|] eqn:A; [reflexivity|].
        destruct (M n Mn) as [I|I]; [|apply C; exact I]. exfalso.
        rewrite <- (holes_names _ _ _ Av) in I. destruct (assoc_in_some _ n vs I) as [v B]. congruence. }
    destruct Q as (v & Ev & Iv). cbn [second_row]. rewrite Ev, E. cbn [bind]. eexists. split; [reflexivity|]. constructor; [split; [reflexivity|exact Iv]|exact Fo]. }
  apply (H items cs F P).
Qed.

(** *** The groups *)
Lemma key_values : forall items group r, Forall (plain_key items) group -> group <> [] ->
  map (key_value frepr ident ext lib nested r) (canons frepr ident ext group) = map (group_value value r) group.
Proof.
  intros items group r H Ne. unfold canons. destruct group as [|k0 group]; [congruence|]. clear Ne. generalize dependent (k0 :: group). clear k0 group. intros group H.
  rewrite map_map. apply map_ext_in. intros k I. rewrite Forall_forall in H. specialize (H k I). destruct k as [q n|e]; [reflexivity|].
  cbn [canon key_value group_value plain_key] in *. apply (compiled_value frepr ident ext lib tt no_neg e (proj1 H) r).
Qed.
Lemma mapm_ok : forall A B (f : A -> res B) (P : A -> B -> Prop) l, (forall x, In x l -> exists y, f x = Ok y /\ P x y) ->
  exists ys, mapm f l = Ok ys /\ Forall2 P l ys.
Proof.
  intros A B f P. induction l as [|x l IH]; intros H; [exists []; split; [reflexivity|constructor]|].
  destruct (H x (or_introl eq_refl)) as (y & E & Py). destruct IH as (ys & E' & F); [intros z I; apply H; right; exact I|].
  exists (y :: ys). cbn [mapm]. rewrite E, E'. cbn [bind]. split; [reflexivity|constructor; assumption].
Qed.
Lemma Forall2_map_l : forall A B C (f : A -> B) (P : B -> C -> Prop) l m, Forall2 P (map f l) m <-> Forall2 (fun x y => P (f x) y) l m.
Proof.
  intros A B C f P. induction l as [|x l IH]; intros m; split; intros H; inversion H; subst; cbn [map]; constructor; auto; apply IH; assumption.
Qed.
Lemma firsts_ext : forall f g, (forall a b, sm f a b = sm g a b) -> forall rows seen, firsts f seen rows = firsts g seen rows.
Proof.
  intros f g H. induction rows as [|r rows IH]; intros seen; [reflexivity|]. cbn [firsts].
  assert (existsb (fun s => sm f s r) seen = existsb (fun s => sm g s r) seen) as ->.
  { induction seen as [|s seen IHs]; [reflexivity|]. cbn [existsb]. rewrite H, IHs. reflexivity. }
  destruct (existsb _ seen); [apply IH|]. f_equal. apply IH.
Qed.
End Run.

(** Lemmas for Joinsel_Props: joining after sorting, filtering and cutting the rows of the first table. *)
From Coq Require Import Permutation Sorting.Sorted.
From Verif Require Import Base PyVal Select_Model Select_Spec Select_Proofs Select_Props Joins_Syntax Joins_Spec Joins_Model Joins_Proofs
  Joinsel_Syntax Joinsel_Spec Joinsel_Model.
Open Scope Z_scope.

(** ** Sorting before a flat_map *)
Lemma flat_map_perm : forall A B (f : A -> list B) l l', Permutation l l' -> Permutation (flat_map f l) (flat_map f l').
Proof.
  intros A B f l l' P. induction P; cbn [flat_map]; [constructor|apply Permutation_app_head; exact IHP| |eapply perm_trans; eassumption].
  rewrite !app_assoc. apply Permutation_app_tail, Permutation_app_comm.
Qed.
Lemma strongly_app : forall A (R : A -> A -> Prop) a b, StronglySorted R a -> StronglySorted R b -> (forall x y, In x a -> In y b -> R x y) ->
  StronglySorted R (a ++ b).
Proof.
  intros A R a. induction a as [|x a IH]; intros b Sa Sb H; [exact Sb|]. apply StronglySorted_inv in Sa. destruct Sa as [Sa F]. cbn [app]. constructor.
  - apply IH; [exact Sa|exact Sb|]. intros u v U V. apply H; [right; exact U|exact V].
  - apply Forall_app. split; [exact F|]. apply Forall_forall. intros v V. apply H; [left; reflexivity|exact V].
Qed.
Lemma all_related : forall A (R : A -> A -> Prop) l, (forall x y, In x l -> In y l -> R x y) -> StronglySorted R l.
Proof.
  intros A R l. induction l as [|x l IH]; intros H; constructor.
  - apply IH. intros a b U V. apply H; right; assumption.
  - apply Forall_forall. intros y Y. apply H; [left; reflexivity|right; exact Y].
Qed.
Lemma flat_sort : forall A B (J : A -> list B) (of : B -> A) (le : A -> A -> bool) (leB : B -> B -> bool) src,
  total_preorder le -> (forall x y, leB x y = le (of x) (of y)) -> (forall r x, In x (J r) -> of x = r) ->
  flat_map J (sort le src) = sort leB (flat_map J src).
Proof.
  intros A B J of le leB src T E O.
  assert (TB : total_preorder leB).
  { destruct T as [T1 T2]. split; [intros a b; rewrite !E; apply T1|intros a b c; rewrite !E; apply T2]. }
  apply (sorted_as_unique B leB TB (flat_map J src)); [|apply sort_sorted_as; exact TB].
  destruct (sort_sorted_as A le T src) as (P & S & F). split; [apply flat_map_perm; exact P|]. split.
  - clear P F. induction S as [|r l S IH Fl]; [constructor|]. cbn [flat_map]. apply strongly_app; [|exact IH|].
    + apply all_related. intros x y X Y. rewrite E, (O _ _ X), (O _ _ Y). destruct T as [T1 _]. destruct (T1 r r); assumption.
    + intros x y X Y. apply in_flat_map in Y. destruct Y as (r' & R' & Y). rewrite E, (O _ _ X), (O _ _ Y).
      rewrite Forall_forall in Fl. exact (Fl r' R').
  - intros x. assert (G : forall l, filter (fun y => leB x y && leB y x) (flat_map J l) = flat_map J (filter (fun r => le (of x) r && le r (of x)) l)).
    { intros l. rewrite filter_flat_map, flat_map_filter. apply flat_map_ext. intros r.
      destruct (le (of x) r && le r (of x)) eqn:Er.
      - apply Joins_Proofs.filter_all. intros y Y. rewrite !E, (O _ _ Y). exact Er.
      - apply filter_none. intros y Y. rewrite !E, (O _ _ Y). exact Er. }
    rewrite !G, F. reflexivity.
Qed.
Lemma flat_single : forall A B (J : A -> list B) l, (forall r, In r l -> length (J r) = 1%nat) -> forall n, flat_map J (firstn n l) = firstn n (flat_map J l).
Proof.
  intros A B J l. induction l as [|r l IH]; intros H n; [destruct n; reflexivity|]. destruct n as [|n]; [reflexivity|].
  cbn [firstn flat_map]. pose proof (H r (or_introl eq_refl)) as L. destruct (J r) as [|x [|y z]]; try discriminate L. cbn [app firstn].
  f_equal. apply IH. intros s R. apply H. right. exact R.
Qed.
Lemma flat_take : forall A B (J : A -> list B) l n, n = 0 \/ (forall r, In r l -> length (J r) = 1%nat) -> flat_map J (take n l) = take n (flat_map J l).
Proof.
  intros A B J l n [->|H]; [reflexivity|]. unfold take. destruct (0 <? n); [|reflexivity]. apply flat_single. exact H.
Qed.
Lemma sort_in : forall A (le : A -> A -> bool) l x, In x (sort le l) -> In x l.
Proof. intros A le l x H. eapply Permutation_in; [apply Permutation_sym, sort_perm|exact H]. Qed.

(** ** The joins, one combination at a time *)
Section Run.
Variable cmpv : cmp -> val -> val -> bool.
Variable d : db.
Variable p : text.

Lemma run_joins_flat : forall js es res, run_joins cmpv d p js es = Ok res ->
  exists J, (forall es', run_joins cmpv d p js es' = Ok (flat_map J es')) /\
            forall e x, In x (J e) -> exists pre, x = pre ++ e /\ forall n, In n (map fst pre) -> In n (map jtab js).
Proof.
  induction js as [|j js IH]; intros es res H; cbn [run_joins] in H.
  - exists (fun e => [e]). split.
    + intros es'. cbn [run_joins]. f_equal. induction es' as [|e l IHl]; [reflexivity|]. cbn [flat_map app]. f_equal. exact IHl.
    + intros e x [<-|[]]. exists []. split; [reflexivity|]. intros n [].
  - destruct (join_type_ok j) eqn:Ej; [|discriminate].
    destruct (parse_on cmpv (jtab j) (Plan [] [] []) (jon j)) as [pl|] eqn:Ep; [|discriminate].
    destruct (IH _ _ H) as (J & HJ & HP). clear H.
    set (one := fun e => match filter (joins_row cmpv p (jtab j) pl e) (d (jtab j)) with
                         | [] => [(jtab j, None) :: e]
                         | rs => map (fun r => (jtab j, Some r) :: e) rs end).
    exists (fun e => flat_map J (one e)). split.
    + intros es'. cbn [run_joins]. rewrite Ej, Ep, HJ. f_equal. unfold run_join. fold one.
      induction es' as [|e l IHl]; [reflexivity|]. cbn [flat_map]. rewrite flat_map_app. f_equal. exact IHl.
    + intros e x X. apply in_flat_map in X. destruct X as (y & Y & X). destruct (HP _ _ X) as (pre & -> & Q).
      assert (Z : exists c, y = (jtab j, c) :: e).
      { unfold one in Y. destruct (filter _ _) as [|r rs]; [destruct Y as [<-|[]]; eauto|]. apply in_map_iff in Y. destruct Y as (u & <- & _). eauto. }
      destruct Z as (c & ->). exists (pre ++ [(jtab j, c)]). split; [rewrite <- app_assoc; reflexivity|].
      intros n N. rewrite map_app in N. apply in_app_or in N. cbn [map]. destruct N as [N|[<-|[]]]; [right; exact (Q n N)|left; reflexivity].
Qed.

(** The row of the first table in a combination. *)
Definition row_of (e : env) : row := match assoc p e with Some (Some r) => r | _ => [] end.
Lemma row_of_cell : forall e n, cell n (row_of e) = cval p e (Col (Some p) n).
Proof. intros e n. unfold cell, row_of, cval, rget. cbn [ctab cname]. destruct (assoc p e) as [[r|]|]; reflexivity. Qed.
Lemma assoc_skip : forall (pre : env) r, (forall n, In n (map fst pre) -> n <> p) -> assoc p (pre ++ [(p, Some r)]) = Some (Some r).
Proof.
  induction pre as [|[n o] pre IH]; intros r H; cbn [app assoc].
  - rewrite text_eqb_refl. reflexivity.
  - destruct (text_eqb p n) eqn:E; [apply text_eqb_spec in E; exfalso; apply (H n); [left; reflexivity|congruence]|].
    apply IH. intros m M. apply H. right. exact M.
Qed.
Lemma row_of_primary : forall pre r, (forall n, In n (map fst pre) -> n <> p) -> row_of (pre ++ [(p, Some r)]) = r.
Proof. intros pre r H. unfold row_of. rewrite assoc_skip; [reflexivity|exact H]. Qed.

(** ** The pushed conditions *)
Lemma of_primary_value : forall e c, of_primary p c = true -> get_col p e c = cell (cname c) (row_of e).
Proof.
  intros e [tb n] H. rewrite row_of_cell. unfold of_primary in H. cbn [ctab cname] in *. unfold get_col, cval. cbn [ctab cname].
  destruct tb as [tb|]; [apply text_eqb_spec in H; subst tb|]; reflexivity.
Qed.
Lemma push_value : eq_symmetric cmpv -> forall a n f e, upright a -> push cmpv p a = Some (n, f) -> test_atom cmpv p e a = f (cell n (row_of e)).
Proof.
  intros Sy a n f e U H. destruct a as [o l r|l g|cs g]; cbn [push] in H; cbn [test_atom]; [| |discriminate].
  - destruct l as [c|cs g]; cbn [col_of] in H.
    + destruct (of_primary p c) eqn:E; [|discriminate]. destruct (ocolumns r) eqn:Er; [|discriminate]. injection H as <- <-.
      cbn [get_op]. rewrite (of_primary_value e c E). destruct r as [c'|cs' g']; cbn [ocolumns] in Er; [discriminate|]. subst cs'. reflexivity.
    + destruct r as [c|cs' g']; cbn [col_of] in H; [|discriminate]. destruct (of_primary p c) eqn:E; [|discriminate].
      cbn [ocolumns] in H. destruct cs as [|c0 cs]; [|discriminate]. injection H as <- <-. cbn [upright] in U. subst o.
      cbn [get_op]. rewrite (of_primary_value e c E). cbn [no_args map]. apply Sy.
  - destruct l as [c|]; cbn [col_of] in H; [|discriminate]. destruct (of_primary p c) eqn:E; [|discriminate]. injection H as <- <-.
    cbn [get_op]. rewrite (of_primary_value e c E). reflexivity.
Qed.
Lemma where_split : eq_symmetric cmpv -> forall w e, (forall a, In a w -> upright a) ->
  forallb (test_atom cmpv p e) w = meets cmpv p w (row_of e) && forallb (test_atom cmpv p e) (residual cmpv p w).
Proof.
  intros Sy w e. induction w as [|a w IH]; intros U; [reflexivity|]. unfold meets, residual in *. cbn [forallb filter].
  rewrite IH by (intros b B; apply U; right; exact B). unfold pushed_to at 2. destruct (push cmpv p a) as [[n f]|] eqn:E; cbn [negb].
  - rewrite (push_value Sy a n f e (U a (or_introl eq_refl)) E). rewrite andb_assoc. reflexivity.
  - cbn [forallb]. rewrite andb_true_l. destruct (test_atom cmpv p e a); [reflexivity|]. cbn [andb]. rewrite andb_false_r. reflexivity.
Qed.
Lemma keep_residual : forall w es, keep (predicate cmpv p w) es = filter (fun e => forallb (test_atom cmpv p e) (residual cmpv p w)) es.
Proof.
  intros w es. unfold predicate. destruct (residual cmpv p w) as [|a l]; [|reflexivity]. cbn [keep forallb].
  symmetry. apply Joins_Proofs.filter_all. reflexivity.
Qed.

(** Every join is needed when each joined table is read. *)
Lemma needed_all : forall js need, (forall j, In j js -> In (jtab j) need) -> exists rest, needed_joins need js = (js, rest ++ need).
Proof.
  induction js as [|j js IH]; intros need H; cbn [needed_joins]; [exists []; reflexivity|].
  destruct (IH need) as (rest & ->); [intros i I; apply H; right; exact I|].
  assert (M : memb (jtab j) (rest ++ need) = true) by (apply memb_In, in_or_app; right; apply H; left; reflexivity).
  rewrite M. rewrite app_assoc. eexists. reflexivity.
Qed.
End Run.

(** ** ORDER BY when the first table has an alias *)
Section Names.
Variables Row Out : Type.
Definition unaliased (q : select Row Out) : select Row Out :=
  mkselect (s_schema _ _ q) (s_aggregate _ _ q)
    (if has_alias _ _ q then match s_schema _ _ q with Some schema => filter (fun n => negb (memb n schema)) (s_columns _ _ q) | None => s_columns _ _ q end
     else s_columns _ _ q)
    (s_table _ _ q) None (s_select_columns _ _ q) (s_predicate _ _ q) (s_having _ _ q) (s_group _ _ q) (s_distinct _ _ q) (s_order _ _ q)
    (s_limit _ _ q) (s_offset _ _ q).
Lemma memb_filter : forall n f l, memb n (filter f l) = memb n l && f n.
Proof.
  intros n f l. induction l as [|m l IH]; [reflexivity|]. unfold memb in *. cbn [filter existsb]. destruct (text_eqb n m) eqn:E.
  - apply text_eqb_spec in E. subst m. destruct (f n) eqn:F; cbn [existsb orb andb]; [rewrite text_eqb_refl; reflexivity|]. rewrite IH. apply andb_false_r.
  - destruct (f m); cbn [existsb orb]; rewrite ?E; exact IH.
Qed.
Lemma unaliased_pushed : forall q schema table name, s_schema _ _ q = Some schema ->
  (pushed Row Out q table name = true \/ memb name schema = true) -> pushed Row Out (unaliased q) table name = pushed Row Out q table name.
Proof.
  intros q schema table name Es H. unfold pushed in *. cbn [s_schema unaliased s_table s_aggregate s_columns] in *. rewrite Es in *.
  assert (HA : has_alias Row Out (unaliased q) = false) by reflexivity. rewrite HA. destruct table as [|ch table]; [|reflexivity].
  destruct (match s_aggregate Row Out q with None => true | Some (a, w) => negb (memb name a) && negb (memb name w) end); [|reflexivity].
  destruct (has_alias Row Out q); [|reflexivity]. rewrite memb_filter. destruct (memb name schema); cbn [negb].
  - rewrite !andb_false_r. reflexivity.
  - rewrite andb_true_r, orb_true_r in *. destruct H as [H|H]; [rewrite H; reflexivity|discriminate].
Qed.
Lemma unaliased_keys : forall q l, (forall table name desc, In (Select_Model.OCol table name desc) l -> pushed Row Out (unaliased q) table name = pushed Row Out q table name) ->
  order_keys Row Out (unaliased q) l = order_keys Row Out q l.
Proof.
  intros q l. induction l as [|it l IH]; intros H; [reflexivity|]. cbn [order_keys]. rewrite IH by (intros a b c I; eapply H; right; exact I).
  assert (E : order_key Row Out (unaliased q) it = order_key Row Out q it).
  { destruct it as [table name desc|]; [|reflexivity]. cbn [order_key]. rewrite (H table name desc (or_introl eq_refl)). reflexivity. }
  rewrite E. reflexivity.
Qed.
Lemma keys_in : forall q l ks, order_keys Row Out q l = Ok ks -> forall table name desc, In (Select_Model.OCol table name desc) l ->
  In (name, desc, pushed Row Out q table name) ks.
Proof.
  intros q l. induction l as [|it l IH]; intros ks E table name desc I; [destruct I|]. cbn [order_keys] in E.
  destruct (order_key Row Out q it) as [k|] eqn:Ek; [|discriminate]. cbn [bind] in E. destruct (order_keys Row Out q l) as [r|]; [|discriminate].
  cbn [bind] in E. injection E as <-. destruct I as [->|I]; [left; cbn [order_key] in Ek; injection Ek as <-; reflexivity|right; eapply IH; [reflexivity|exact I]].
Qed.
Lemma unaliased_order : forall q schema r, s_schema _ _ q = Some schema -> compile_order Row Out q = Ok r -> compile_order Row Out (unaliased q) = Ok r.
Proof.
  intros q schema r Es H. assert (G : order_keys Row Out (unaliased q) (s_order _ _ q) = order_keys Row Out q (s_order _ _ q)).
  { apply unaliased_keys. intros table name desc I. apply (unaliased_pushed q schema table name Es).
    unfold compile_order in H. destruct (order_keys Row Out q (s_order Row Out q)) as [ks|] eqn:Ek; [|discriminate]. cbn [bind] in H. cbv zeta in H.
    pose proof (keys_in q _ ks Ek table name desc I) as K.
    destruct (length (map fst (filter snd ks)) <? length (map fst ks))%nat eqn:EL.
    - rewrite Es in H. destruct (forallb _ _) eqn:Ef in H; [|discriminate]. right. rewrite forallb_forall in Ef.
      exact (Ef (name, desc) (in_map fst _ _ K)).
    - left. apply Nat.ltb_ge in EL. rewrite !map_length in EL. destruct (Select_Props.filter_all _ _ _ EL) as [_ All]. exact (All _ K). }
  unfold compile_order in *. cbn [s_order s_schema unaliased]. rewrite G. exact H.
Qed.
Lemma unaliased_compiled : forall q schema k, s_schema _ _ q = Some schema -> compile_select Row Out q = Ok k -> compile_select Row Out (unaliased q) = Ok k.
Proof.
  intros q schema k Es H. unfold compile_select in *. destruct (compile_order Row Out q) as [r|] eqn:E; [|discriminate]. cbn [bind] in H.
  rewrite (unaliased_order q schema r Es E). cbn [bind]. exact H.
Qed.
End Names.

(** ** LIMIT and OFFSET *)
Section Page.
Variables Row Out K : Type.
Variable leK : K -> K -> bool.
Variable src_field : text -> Row -> K.
Variable out_field : text -> Out -> K.
Variable out : Row -> Out.
Variables aggregated grouped distinct : list Row -> list Out.
Lemma select_paged : forall q src, collapses q = false -> (forall n, s_limit _ _ q = Some n -> 0 < n) ->
  run_select Row Out K leK src_field out_field out aggregated grouped distinct q src =
  do l <- run_select Row Out K leK src_field out_field out aggregated grouped distinct (with_limit q None None) src;
  Ok (paged (s_limit _ _ q) (s_offset _ _ q) l).
Proof.
  intros q src C PL. assert (E : q = with_limit q (s_limit _ _ q) (s_offset _ _ q)) by (destruct q; reflexivity). rewrite E at 1. unfold paged.
  assert (Sk : forall o (l : list Out), match o with Some o => skipn (Z.to_nat o) l | None => l end = skipn (skipped o) l) by (intros [o|] l; reflexivity).
  destruct (s_limit Row Out q) as [n|].
  - rewrite limit_page; [|exact (PL n eq_refl)|congruence]. destruct (run_select _ _ _ _ _ _ _ _ _ _ _ src) as [l|]; [|reflexivity]. cbn [bind]. unfold page. rewrite Sk. reflexivity.
  - destruct (s_offset Row Out q) as [o|].
    + rewrite offset_only. reflexivity.
    + destruct (run_select _ _ _ _ _ _ _ _ _ _ _ src) as [l|]; reflexivity.
Qed.
(** When there is more to do after loading, the loader gets no limit. *)
Lemma later_no_limit : forall q k, compile_select Row Out q = Ok k -> s_limit _ _ q = None \/ computed_later q -> t_limit k = 0.
Proof.
  intros q k H L. unfold compile_select in H. destruct (compile_order Row Out q) as [[o ps]|] eqn:EO; [|discriminate]. cbn [bind fst snd] in H.
  destruct (compile_limit Row Out q ps) as [pl lim] eqn:EL. destruct (select_kind Row Out q); [|discriminate]. cbn [bind] in H. injection H as <-. cbn [t_limit].
  unfold compile_limit in EL. cbv zeta in EL. destruct (_ || _) eqn:E0 in EL; [|injection EL as _ <-; reflexivity].
  match type of EL with (if ?b then _ else _) = _ => destruct b eqn:B end; [injection EL as _ <-; reflexivity|]. exfalso.
  repeat (apply orb_false_elim in B; destruct B as [B ?]). destruct L as [L|[L|[L|[L|(o' & ks & L)]]]].
  - rewrite L in *. discriminate.
  - destruct (s_predicate Row Out q); [discriminate|congruence].
  - destruct (s_having Row Out q); [discriminate|congruence].
  - congruence.
  - rewrite EO in L. injection L as <- ->. discriminate.
Qed.
End Page.

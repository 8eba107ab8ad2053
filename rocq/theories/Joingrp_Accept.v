(** C234, C239: SELECTs over INNER JOINs of the class claimed compile and run. *)
From Coq Require Import SpecFloat.
From Verif Require Import Base PyVal Utils_Model Calc_Model Calc_Proofs Expr_Syntax Expr_Model Expr_Spec Expr_Proofs Expr_Props
  Having_Model Having_Spec Having_Proofs Having_Props Agg_Spec Reduce_Spec Group_Syntax Group_Model Group_Spec Group_Proofs Group_Props
  Inner_Syntax Inner_Model Inner_Spec Inner_Proofs Inner_Props Whole_Syntax Cast_Syntax Whole_Model Whole_Spec Whole_Proofs
  Whole_Props Whole_Cases Select_Model Select_Spec Select_Proofs Select_Props Joins_Syntax Joins_Spec Joins_Model Joins_Proofs Joins_Accept Joins_Props
  Joinsel_Syntax Joinsel_Spec Joinsel_Model Joinsel_Proofs Joinsel_Props Joinsel_Cases Joingrp_Syntax Joingrp_Spec Joingrp_Model Joingrp_Proofs Joingrp_Props Joingrp_Cases.
Open Scope Z_scope.

Section Inner.
Variable cmpv : cmp -> val -> val -> bool.
Variable d : db.
Variable p : text.
Hypothesis NR : null_rejecting cmpv.
Hypothesis SY : eq_symmetric cmpv.

Lemma run_joins_any : forall js es r es', run_joins cmpv d p js es = Ok r -> exists r', run_joins cmpv d p js es' = Ok r'.
Proof.
  induction js as [|j js IH]; intros es r es' H; [eexists; reflexivity|]. cbn [run_joins] in *. destruct (join_type_ok j); [|discriminate].
  destruct (parse_on cmpv (jtab j) (Plan [] [] []) (jon j)); [|discriminate]. exact (IH _ _ _ H).
Qed.
Lemma scoped_columns : forall js ts j a c, scoped ts js -> In j js -> In a (jon j) -> In c (acols a) -> exists tb, ctab c = Some tb /\ (In tb ts \/ In tb (map jtab js)).
Proof.
  induction js as [|i js IH]; intros ts j a c Hs Hj Ha Hc; [destruct Hj|]. cbn [scoped] in Hs. destruct Hs as (_ & H2 & H3). cbn [map]. destruct Hj as [<-|Hj].
  - destruct (H2 a c Ha Hc) as (tb & E & I). exists tb. split; [exact E|]. destruct I as [<-|I]; [right; left; reflexivity|left; exact I].
  - destruct (IH _ j a c H3 Hj Ha Hc) as (tb & E & I). exists tb. split; [exact E|]. destruct I as [[<-|I]|I]; [right; left; reflexivity|left; exact I|right; right; exact I].
Qed.
(** What the rewrite makes of INNER JOINs. *)
Lemma inner_shape : forall fuel q, one_table p q -> qjoins q <> [] -> (forall j a, In j (qjoins q) -> In a (jon j) -> strict_atom a) ->
  (forall j, In j (qjoins q) -> jkind j = KInner /\ jside j = SNone /\ linked p j = true) ->
  exists nn, optimize fuel q = Some (Query [p] (map as_left (qjoins q)) (qwhere q ++ nn)) /\
    (forall a, In a nn -> upright a /\ forall c, In c (acols a) -> condition_column q c /\ exists tb, ctab c = Some tb /\ (tb = p \/ In tb (map jtab (qjoins q)))) /\
    execute cmpv d (Query [p] (map as_left (qjoins q)) (qwhere q ++ nn)) = Ok (sql_query cmpv p d q) /\
    (forall es, exists r, run_joins cmpv d p (map as_left (qjoins q)) es = Ok r).
Proof.
  intros fuel q One Ne Strict Inner. pose proof One as (Hf & Hsc & Hpl).
  assert (Ho : optimize fuel q = Some (inner_rewrite q)).
  { unfold optimize. rewrite (single_from q p Hf). rewrite no_right by (intros j Hj E; destruct (Inner j Hj) as (_ & E' & _); congruence).
    destruct (qjoins q) as [|j js]; [congruence|]. cbn [existsb]. destruct (Inner j (or_introl eq_refl)) as (-> & _). reflexivity. }
  pose proof (inner_joins_correct cmpv d fuel p q NR SY One Strict Ne Inner) as IC. unfold Joins_Model.run_query in IC. rewrite Ho in IC.
  apply (f_equal (fun o => match o with Some x => x | None => Err OtherError end)) in IC.
  destruct (inner_fields p (qjoins q)) as [|c cs] eqn:Ef.
  { exfalso. assert (E : inner_rewrite q = q) by (unfold inner_rewrite; rewrite Hf, Ef; reflexivity). rewrite E in IC. unfold execute in IC. rewrite Hf in IC.
    destruct (qjoins q) as [|j js]; [congruence|]. cbn [run_joins] in IC. unfold join_type_ok in IC.
    destruct (Inner j (or_introl eq_refl)) as (Ek & _). rewrite Ek in IC. cbn [andb] in IC. discriminate. }
  assert (E : inner_rewrite q = Query [p] (map as_left (qjoins q)) (qwhere q ++ map not_null (c :: cs))) by (unfold inner_rewrite; rewrite Hf, Ef; reflexivity).
  rewrite E in Ho, IC. exists (map not_null (c :: cs)). split; [exact Ho|]. split; [|split; [exact IC|]].
  - intros a I. apply in_map_iff in I. destruct I as (y & <- & I). split; [exact Logic.I|]. intros x [<-|[]].
    rewrite <- Ef in I. unfold inner_fields in I. apply filter_In in I. destruct I as [I _].
    apply in_flat_map in I. destruct I as (j & Ij & I). unfold join_fields in I. destruct (tab_mem _ _); [|destruct I].
    apply in_flat_map in I. destruct I as (a & Ia & I). apply filter_In in Ia. destruct Ia as [Ia _]. split; [right; exists j, a; auto|].
    destruct (scoped_columns _ [p] j a y Hsc Ij Ia I) as (tb & Et & J). exists tb. split; [exact Et|]. destruct J as [[J|[]]|J]; [left; symmetry; exact J|right; exact J].
  - intros es. unfold execute in IC. cbn [qfrom qjoins] in IC.
    destruct (run_joins cmpv d p (map as_left (qjoins q)) (map (fun r => [(p, Some r)]) (d p))) as [r|] eqn:R; [|discriminate]. exact (run_joins_any _ _ _ es R).
Qed.
Lemma as_left_tabs : forall js, map jtab (map as_left js) = map jtab js.
Proof. intros js. rewrite map_map. reflexivity. Qed.
Lemma residual_columns : forall w nn c, In c (flat_map acolumns (Joinsel_Model.residual cmpv p (w ++ nn))) -> exists a, (In a w \/ In a nn) /\ In c (acols a).
Proof. intros w nn c I. apply in_flat_map in I. destruct I as (a & Ia & I). apply filter_In in Ia. destruct Ia as [Ia _]. apply in_app_or in Ia. exists a. auto. Qed.

(** C234 *)
Theorem inner_select_accepted : forall leK fuel aliased st, p <> [] -> one_table p (j_query st) -> qjoins (j_query st) <> [] ->
  (forall j a, In j (qjoins (j_query st)) -> In a (jon j) -> strict_atom a) ->
  (forall j, In j (qjoins (j_query st)) -> jkind j = KInner /\ jside j = SNone /\ linked p j = true) ->
  all_selected (map jtab (qjoins (j_query st))) st -> reads_known st (p :: map jtab (qjoins (j_query st))) -> orderable p st ->
  exists l, run_joinsel cmpv leK d fuel aliased st = Some (Ok l).
Proof.
  intros leK fuel aliased st Np One Ne Strict Inner Sel (K1 & K2) O. destruct (inner_shape fuel (j_query st) One Ne Strict Inner) as (nn & Ho & Nn & _ & RJ).
  unfold run_joinsel. rewrite Ho. unfold run_compiled. cbn [qfrom qjoins qwhere]. destruct (RJ []) as (x0 & ->). cbn [bind]. cbv zeta.
  set (need := tables_of _). assert (N : forall tb, In tb need -> In tb (p :: map jtab (map as_left (qjoins (j_query st))))).
  { rewrite as_left_tabs. intros tb I. apply tables_in in I. destruct I as (c & I & E). apply in_app_or in I. destruct I as [I|I].
    - apply in_flat_map in I. destruct I as ([n o] & X & I). exact (K1 n o c tb X I E).
    - apply residual_columns in I. destruct I as (a & [Ia|Ia] & I); [exact (K2 a c tb Ia I E)|]. destruct (proj2 (Nn a Ia) c I) as (_ & tb' & E' & J).
      assert (tb' = tb) by congruence. subst tb'. destruct J as [->|J]; [left; reflexivity|right; exact J]. }
  rewrite (known_ok _ _ _ N). destruct (order_accepts cmpv p aliased (Query [p] (map as_left (qjoins (j_query st))) (qwhere (j_query st) ++ nn)) st Np O) as (k & ->). cbn [bind].
  destruct (needed_all (map as_left (qjoins (j_query st))) need) as (rest & ->).
  { intros j I. assert (J : In (jtab j) (map jtab (qjoins (j_query st)))) by (rewrite <- as_left_tabs; apply in_map; exact I).
    destruct (Sel (jtab j) J) as (n & o & IO & c & Ic & Ec). unfold need, tables_of. apply in_flat_map. exists c. split.
    - apply in_or_app. left. apply in_flat_map. exists (n, o). split; [exact IO|exact Ic].
    - rewrite Ec. left. reflexivity. }
  cbn [fst]. match goal with |- context [run_joins cmpv d p ?js ?es] => destruct (RJ es) as (es' & ->) end. cbn [bind]. eauto.
Qed.

(** C239 *)
Theorem inner_grouped_accepted : forall frepr ident ext lib str_of pick nested raw state_name other rematch leK tt fuel aliased g,
  ext (t "neg") = None -> total_preorder leK ->
  (forall a b, pyeq a b = true -> leK a b = true /\ leK b a = true) -> (forall rs, rs <> [] -> In (pick rs) rs) -> (forall p q, state_name p = state_name q -> p = q) ->
  one_table p (g_from g) -> qjoins (g_from g) <> [] ->
  (forall j a, In j (qjoins (g_from g)) -> In a (jon j) -> strict_atom a) ->
  (forall j, In j (qjoins (g_from g)) -> jkind j = KInner /\ jside j = SNone /\ linked p j = true) ->
  (forall j, In j (qjoins (g_from g)) -> read_by (g_rest g) (jtab j)) -> reads_known_tables p g -> (forall a, In a (qwhere (g_from g)) -> upright a) ->
  grouped_over p g -> (forall m alias e, In (alias, e) (st_items (g_rest g)) -> ~ mentions (state_name m) e) ->
  summable_groups tt (sql_fn frepr ident ext lib) equal_keys (g_rest g) (joined cmpv p d (g_from g)) ->
  exists l, run_joingrp cmpv frepr ident ext lib str_of pick nested raw state_name other rematch leK d fuel aliased g = Some (Ok l).
Proof.
  intros frepr ident ext lib str_of pick nested raw state_name other rematch leK tt fuel aliased g NN TK EQ HP INJ One Ne Strict Inner Sel (K1 & K2) Up GO FR SG.
  pose proof One as (Hf & Hsc & Hpl).
  destruct (inner_shape fuel (g_from g) One Ne Strict Inner) as (nn & Ho & Nn & Ex' & RJ). destruct (RJ []) as (x0 & E0).
  set (q := Query [p] (map as_left (qjoins (g_from g))) (qwhere (g_from g) ++ nn)) in *.
  destruct (grouped_runs cmpv frepr ident ext lib tt str_of pick nested raw state_name other rematch leK d p SY NN TK EQ HP INJ aliased g q x0 GO FR eq_refl) as (es & Ex & G);
    try assumption; cbn [q qjoins qwhere].
  - intros j I. apply in_map_iff in I. destruct I as (j0 & <- & I). exact (scoped_neq _ [p] p (or_introl eq_refl) Hsc j0 I).
  - intros j I. apply in_map_iff in I. destruct I as (j0 & <- & I). exact (Sel j0 I).
  - intros a I. apply in_app_or in I. destruct I as [I|I]; [exact (Up a I)|exact (proj1 (Nn a I))].
  - intros c [(a & I & X)|(j & a & I & Ia & X)]; cbn [q qjoins qwhere] in I.
    + apply in_app_or in I. destruct I as [I|I]; [left; exists a; auto|exact (proj1 (proj2 (Nn a I) c X))].
    + apply in_map_iff in I. destruct I as (j0 & <- & I). right. exists j0, a. auto.
  - apply known_ok. rewrite as_left_tabs. intros tb I. apply tables_in in I. destruct I as (c & I & E).
    assert (J : tb = p \/ In tb (map jtab (qjoins (g_from g)))); [|destruct J as [->|J]; [left; reflexivity|right; exact J]].
    apply in_app_or in I. destruct I as [I|I].
    + apply in_map_iff in I. destruct I as (m & <- & I). apply K1. exists m. split; [exact E|]. unfold items_read in I. apply in_app_or in I. destruct I as [I|I]; apply in_flat_map in I.
      * destruct I as ([n e] & Ie & I). left. exists n, e. split; [exact Ie|]. apply columns_mentions. exact I.
      * destruct I as (k & Ik & I). right. exists k. split; [exact Ik|]. destruct k as [b m'|e]; cbn [key_reads column_of_key] in *; [destruct I as [->|[]]; reflexivity|apply columns_mentions; exact I].
    + cbn [q qwhere] in I. apply residual_columns in I. destruct I as (a & [Ia|Ia] & I); [exact (K2 a c tb Ia I E)|]. destruct (proj2 (Nn a Ia) c I) as (_ & tb' & E' & J).
      assert (tb' = tb) by congruence. subst tb'. exact J.
  - rewrite Ex' in Ex. apply Calc_Proofs.Ok_inj in Ex. rewrite <- Ex in G. destruct (G SG) as (l & R & _). exists l. unfold run_joingrp. rewrite Ho, R. reflexivity.
Qed.
End Inner.
Print Assumptions inner_select_accepted.
Print Assumptions inner_grouped_accepted.

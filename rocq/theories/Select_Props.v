(** C32 (LIMIT / OFFSET) and C35 (ORDER BY). *)
From Coq Require Import Permutation Sorting.Sorted.
From Verif Require Import Base Select_Model Select_Spec Select_Proofs.
Local Open Scope Z_scope.

Definition with_limit {Row Out} (q : select Row Out) (limit offset : option Z) : select Row Out :=
  mkselect (s_schema _ _ q) (s_aggregate _ _ q) (s_columns _ _ q) (s_table _ _ q) (s_alias _ _ q) (s_select_columns _ _ q)
    (s_predicate _ _ q) (s_having _ _ q) (s_group _ _ q) (s_distinct _ _ q) (s_order _ _ q) limit offset.
(** The number of rows OFFSET skips. *)
Definition skipped (offset : option Z) : nat := match offset with Some o => Z.to_nat o | None => 0%nat end.
(** GROUP BY without aggregates, or DISTINCT without GROUP BY and aggregates. *)
Definition collapses {Row Out} (q : select Row Out) : bool := negb (has_aggregates _ _ q) && (s_group _ _ q || s_distinct _ _ q).
(** The result needs more work after loading: a residual WHERE, HAVING, window functions, a sort on computed columns. *)
Definition computed_later {Row Out} (q : select Row Out) : Prop :=
  s_predicate _ _ q <> None \/ s_having _ _ q <> None \/ has_windows _ _ q = true \/ exists o k, compile_order _ _ q = Ok (o, [PSort k]).

Section Limit.
Variables Row Out K : Type.
Variable leK : K -> K -> bool.
Variable src_field : text -> Row -> K.
Variable out_field : text -> Out -> K.
Variable out : Row -> Out.
Variables aggregated grouped distinct : list Row -> list Out.
Let run := run_select Row Out K leK src_field out_field out aggregated grouped distinct.

Lemma order_with_limit : forall q a b, compile_order Row Out (with_limit q a b) = compile_order _ _ q.
Proof.
  intros q a b. unfold compile_order. cbn [s_order s_schema with_limit].
  assert (E : forall l, order_keys Row Out (with_limit q a b) l = order_keys Row Out q l).
  { induction l as [|it l IH]; [reflexivity|]. cbn [order_keys]. rewrite IH. reflexivity. }
  rewrite E. reflexivity.
Qed.
Lemma order_shape : forall q o p, compile_order Row Out q = Ok (o, p) -> p = [] \/ exists k, p = [PSort k].
Proof.
  intros q o p H. unfold compile_order in H. destruct (order_keys Row Out q (s_order Row Out q)) as [ks|]; [|discriminate]. cbn [bind] in H.
  destruct (_ <? _)%nat; [|injection H; auto]. destruct (s_schema Row Out q); [destruct (forallb _ _); [|discriminate]|]; injection H as _ <-; eauto.
Qed.

(** LIMIT n, with or without OFFSET: rows offset+1 .. offset+n of the result without LIMIT and OFFSET. *)
Theorem limit_page : forall q n offset source, 0 < n -> (collapses q = true -> computed_later q) ->
  run (with_limit q (Some n) offset) source =
  do l <- run (with_limit q None None) source; Ok (page (skipped offset) (Z.to_nat n) l).
Proof.
  intros q n off src Hn HC. unfold run, run_select, compile_select. rewrite !order_with_limit.
  destruct (compile_order Row Out q) as [[o p]|] eqn:EO; [|reflexivity]. cbn [bind snd fst].
  set (ov := match off with Some o => Z.max o 0 | None => 0 end).
  assert (Hov : 0 <= ov) by (unfold ov; destruct off; lia).
  assert (Hs : skipped off = Z.to_nat ov) by (unfold ov, skipped; destruct off; lia).
  unfold compile_limit at 1. cbn [s_limit s_offset with_limit]. change (match off with Some o => Z.max o 0 | None => 0 end) with ov. cbv zeta.
  replace (n =? 0) with false by (symmetry; apply Z.eqb_neq; lia). cbn [negb orb].
  replace (0 <? n) with true by (symmetry; apply Z.ltb_lt; lia). replace (n <=? 0) with false by (symmetry; apply Z.leb_gt; lia).
  unfold compile_limit. cbn [s_limit s_offset with_limit]. change ((negb (0 =? 0) || (0 <? 0))%bool) with false. cbv iota.
  change (select_kind Row Out (with_limit q (Some n) off)) with (select_kind Row Out q).
  change (select_kind Row Out (with_limit q None None)) with (select_kind Row Out q).
  change (is_some (s_predicate Row Out (with_limit q (Some n) off))) with (is_some (s_predicate Row Out q)).
  change (is_some (s_having Row Out (with_limit q (Some n) off))) with (is_some (s_having Row Out q)).
  change (has_aggregates Row Out (with_limit q (Some n) off)) with (has_aggregates Row Out q).
  change (has_windows Row Out (with_limit q (Some n) off)) with (has_windows Row Out q).
  rewrite orb_false_r, Hs.
  destruct (is_some (s_predicate Row Out q) || is_some (s_having Row Out q) || has_aggregates Row Out q || has_windows Row Out q || negb (is_nil p)) eqn:Late.
  - destruct (select_kind Row Out q) as [k|]; [|reflexivity]. cbn [bind]. f_equal. unfold run_task. cbn [t_pipelines t_having t_kind t_predicate t_limit t_orders].
    rewrite fold_left_app. cbn [fold_left apply_pipeline]. apply pyslice_page; assumption.
  - apply orb_false_iff in Late. destruct Late as [Late Lp]. apply orb_false_iff in Late. destruct Late as [Late Lw].
    apply orb_false_iff in Late. destruct Late as [Late La]. apply orb_false_iff in Late. destruct Late as [Lpr Lh].
    destruct p; [|discriminate Lp]. clear Lp.
    destruct (s_predicate Row Out q) eqn:Ep; [discriminate|]. destruct (s_having Row Out q) eqn:Eh; [discriminate|].
    assert (NC : collapses q = false).
    { destruct (collapses q); [|reflexivity]. destruct (HC eq_refl) as [X|[X|[X|(o' & k & X)]]]; congruence. }
    unfold collapses in NC. rewrite La in NC. cbn [negb andb] in NC. apply orb_false_iff in NC. destruct NC as [NG ND].
    unfold select_kind. rewrite La, NG, ND, Lw. cbn [bind]. f_equal. unfold run_task. cbn [t_pipelines t_having t_kind t_predicate t_limit t_orders].
    cbn [s_predicate s_having with_limit]. rewrite Ep, Eh. cbn [keep compute fold_left].
    change (take 0 (sort (le_by K leK src_field o) src)) with (sort (le_by K leK src_field o) src).
    generalize (sort (le_by K leK src_field o) src). intros l. unfold take. replace (0 <? ov + n) with true by (symmetry; apply Z.ltb_lt; lia).
    replace (Z.to_nat (ov + n)) with (Z.to_nat ov + Z.to_nat n)%nat by lia. rewrite <- firstn_map.
    destruct (0 <? ov) eqn:E0.
    + cbn [app fold_left apply_pipeline]. rewrite pyslice_skip by assumption. apply skipn_firstn_page.
    + cbn [fold_left]. apply Z.ltb_ge in E0. assert (ov = 0) as -> by lia. reflexivity.
Qed.

(** OFFSET without LIMIT. *)
Theorem offset_only : forall q offset source,
  run (with_limit q None (Some offset)) source =
  do l <- run (with_limit q None None) source; Ok (skipn (Z.to_nat offset) l).
Proof.
  intros q off src. unfold run, run_select, compile_select. rewrite !order_with_limit.
  destruct (compile_order Row Out q) as [[o p]|] eqn:EO; [|reflexivity]. cbn [bind snd fst].
  unfold compile_limit. cbn [s_limit s_offset with_limit]. cbv zeta. change (negb (0 =? 0)) with false. cbn [orb].
  change (0 <? 0) with false. cbv iota. rewrite orb_true_r. destruct (0 <? Z.max off 0) eqn:E.
  - change (0 =? 0) with true. cbv iota.
    change (select_kind Row Out (with_limit q None (Some off))) with (select_kind Row Out q).
    change (select_kind Row Out (with_limit q None None)) with (select_kind Row Out q).
    destruct (select_kind Row Out q); [|reflexivity]. cbn [bind]. f_equal. unfold run_task. cbn [t_pipelines t_having t_kind t_predicate t_limit t_orders].
    rewrite fold_left_app. cbn [fold_left apply_pipeline]. rewrite pyslice_skip by lia. f_equal. lia.
  - apply Z.ltb_ge in E. change (select_kind Row Out (with_limit q None (Some off))) with (select_kind Row Out q).
    change (select_kind Row Out (with_limit q None None)) with (select_kind Row Out q).
    destruct (select_kind Row Out q); [|reflexivity]. cbn [bind]. f_equal. replace (Z.to_nat off) with 0%nat by lia. reflexivity.
Qed.

(** LIMIT 0 is the same as no LIMIT. *)
Theorem limit_zero_refuted : forall q offset source,
  run (with_limit q (Some 0) offset) source = run (with_limit q None offset) source.
Proof. intros. unfold run, run_select, compile_select. rewrite !order_with_limit. reflexivity. Qed.

(** DISTINCT, or GROUP BY without aggregates, with nothing else left to compute: the limit is applied to the rows that are collapsed. *)
Theorem limit_before_collapsing : forall q n offset source, 0 < n -> collapses q = true -> ~ computed_later q ->
  forall k o, select_kind _ _ q = Ok k -> compile_order _ _ q = Ok (o, []) ->
  run (with_limit q (Some n) offset) source =
  Ok (skipn (skipped offset)
       (compute Row Out out aggregated grouped distinct k
          (firstn (skipped offset + Z.to_nat n) (sort (le_by K leK src_field o) source)))) /\ (k = KGrouped \/ k = KDistinct).
Proof.
  intros q n off src Hn HC NL k o EK EO. unfold run, run_select, compile_select. rewrite !order_with_limit, EO. cbn [bind snd fst].
  set (ov := match off with Some o => Z.max o 0 | None => 0 end).
  assert (Hov : 0 <= ov) by (unfold ov; destruct off; lia).
  assert (Hs : skipped off = Z.to_nat ov) by (unfold ov, skipped; destruct off; lia).
  unfold compile_limit at 1. cbn [s_limit s_offset with_limit]. change (match off with Some o => Z.max o 0 | None => 0 end) with ov. cbv zeta.
  replace (n =? 0) with false by (symmetry; apply Z.eqb_neq; lia). cbn [negb orb].
  replace (0 <? n) with true by (symmetry; apply Z.ltb_lt; lia). replace (n <=? 0) with false by (symmetry; apply Z.leb_gt; lia).
  change (select_kind Row Out (with_limit q (Some n) off)) with (select_kind Row Out q).
  change (is_some (s_predicate Row Out (with_limit q (Some n) off))) with (is_some (s_predicate Row Out q)).
  change (is_some (s_having Row Out (with_limit q (Some n) off))) with (is_some (s_having Row Out q)).
  change (has_aggregates Row Out (with_limit q (Some n) off)) with (has_aggregates Row Out q).
  change (has_windows Row Out (with_limit q (Some n) off)) with (has_windows Row Out q).
  rewrite orb_false_r, Hs.
  destruct (s_predicate Row Out q) eqn:Ep; [exfalso; apply NL; left; congruence|].
  destruct (s_having Row Out q) eqn:Eh; [exfalso; apply NL; right; left; congruence|].
  destruct (has_windows Row Out q) eqn:Ew; [exfalso; apply NL; right; right; left; exact Ew|].
  unfold collapses in HC. destruct (has_aggregates Row Out q) eqn:Ea; [discriminate|]. cbn [negb andb] in HC. cbn [is_some orb is_nil negb].
  split.
  - rewrite EK. cbn [bind]. f_equal. unfold run_task. cbn [t_pipelines t_having t_kind t_predicate t_limit t_orders s_predicate s_having with_limit].
    rewrite Ep, Eh. cbn [keep]. unfold take. replace (0 <? ov + n) with true by (symmetry; apply Z.ltb_lt; lia).
    replace (Z.to_nat (ov + n)) with (Z.to_nat ov + Z.to_nat n)%nat by lia. destruct (0 <? ov) eqn:E0.
    + cbn [app fold_left apply_pipeline]. apply pyslice_skip. assumption.
    + cbn [fold_left]. apply Z.ltb_ge in E0. assert (ov = 0) as -> by lia. reflexivity.
  - unfold select_kind in EK. rewrite Ea in EK. destruct (s_group Row Out q); [destruct (s_schema Row Out q) as [[|]|]; try discriminate; injection EK; auto|].
    cbn [orb] in HC. rewrite HC in EK. destruct (s_schema Row Out q) as [[|]|]; try discriminate; injection EK; auto.
Qed.

(** *** ORDER BY *)
Hypothesis TK : total_preorder leK.
(** [key it r]: the value of the ORDER BY item on the row; [key_out it o]: on the output row. *)
Variable key : order_item -> Row -> K.

Definition descending (it : order_item) : bool := match it with OCol _ _ d => d | OExp _ _ d => d end.

(** The column of the result named so is computed by an aggregate or a window. *)
Definition computed (q : select Row Out) (name : text) : Prop :=
  match s_aggregate _ _ q with None => False | Some (a, w) => In name a \/ In name w end.
(** The names used in ORDER BY mean the same as a column of the table and as a column of the result. *)
Definition source_names (q : select Row Out) : Prop :=
  forall table name d, In (OCol table name d) (s_order _ _ q) ->
  match s_schema _ _ q with
  | None => True
  | Some schema => (table = s_table _ _ q /\ table <> []) \/ (table = [] /\ ~ computed q name /\ (In name (s_columns _ _ q) \/ ~ In name schema))
  end -> forall r, src_field name r = key (OCol table name d) r.
Definition result_names {A} (q : select Row Out) (field : text -> A -> K) (key : order_item -> A -> K) : Prop :=
  forall schema, s_schema _ _ q = Some schema ->
  (forall table name d, In (OCol table name d) (s_order _ _ q) -> In name schema -> forall o, field name o = key (OCol table name d) o) /\
  (forall sql lsql d, In (OExp sql lsql d) (s_order _ _ q) ->
     (In sql schema -> forall o, field sql o = key (OExp sql lsql d) o) /\
     (forall alias, In (alias, lsql) (s_select_columns _ _ q) -> forall o, field alias o = key (OExp sql lsql d) o)).

Definition order_le {A} (k : order_item -> A -> K) (l : list order_item) : A -> A -> bool :=
  lex_le leK (map (fun it => (k it, descending it)) l).

Lemma memb_In : forall k l, memb k l = true <-> In k l.
Proof.
  intros k l. unfold memb. rewrite existsb_exists. split.
  - intros (x & I & E). apply text_eqb_spec in E. congruence.
  - intros I. exists k. split; [exact I|apply text_eqb_refl].
Qed.
Lemma pushed_source : forall q table name d, source_names q -> In (OCol table name d) (s_order _ _ q) ->
  pushed Row Out q table name = true -> forall r, src_field name r = key (OCol table name d) r.
Proof.
  intros q table name d SN I P. apply (SN table name d I). unfold pushed in P. destruct (s_schema Row Out q) as [schema|]; [|exact Logic.I].
  destruct table as [|c table].
  - right. split; [reflexivity|]. match type of P with (if ?b then _ else _) = _ => destruct b eqn:B; [|discriminate P] end.
    split.
    { unfold computed. destruct (s_aggregate Row Out q) as [[a w]|]; [|tauto]. apply andb_prop in B. destruct B as [B1 B2].
      apply negb_true_iff in B1, B2. rewrite <- !memb_In. intros [C|C]; congruence. }
    destruct (has_alias Row Out q).
    + apply andb_prop in P. left. apply memb_In. apply P.
    + apply orb_prop in P. destruct P as [P|P]; [left; apply memb_In; exact P|]. right. intros J. apply memb_In in J. rewrite J in P. discriminate.
  - left. destruct (text_eqb (s_table Row Out q) (c :: table)) eqn:E; [|discriminate P]. apply text_eqb_spec in E. rewrite E. split; [reflexivity|discriminate].
Qed.
(** What the compiled keys are. *)
Lemma order_keys_spec : forall A q (field : text -> A -> K) key_out l ks, incl l (s_order _ _ q) -> order_keys Row Out q l = Ok ks ->
  result_names q field key_out ->
  Forall2 (fun it k => snd (fst k) = descending it /\ (source_names q -> snd k = true -> forall r, src_field (fst (fst k)) r = key it r) /\
     (forall schema, s_schema _ _ q = Some schema -> In (fst (fst k)) schema -> forall o, field (fst (fst k)) o = key_out it o)) l ks.
Proof.
  intros A q field key_out l. induction l as [|it l IH]; intros ks Inc E RN; cbn [order_keys] in E.
  - injection E as <-. constructor.
  - destruct (order_key Row Out q it) as [k|] eqn:Ek; [|discriminate]. cbn [bind] in E.
    destruct (order_keys Row Out q l) as [ks'|]; [|discriminate]. injection E as <-.
    constructor; [|apply IH; [intros z Z; apply Inc; right; exact Z|reflexivity|exact RN]].
    assert (I : In it (s_order _ _ q)) by (apply Inc; left; reflexivity). clear IH Inc.
    destruct it as [table name d|sql lsql d]; cbn [order_key] in Ek.
    + injection Ek as <-. cbn [fst snd descending]. split; [reflexivity|]. split; [intros SN P; apply (pushed_source q); assumption|].
      intros schema Es Im. exact (proj1 (RN schema Es) table name d I Im).
    + destruct (s_schema Row Out q) as [schema|] eqn:Es; [|discriminate]. destruct (memb sql schema) eqn:Em.
      * injection Ek as <-. cbn [fst snd descending]. split; [reflexivity|]. split; [discriminate|].
        intros sc Esc Im. injection Esc as <-. exact (proj1 (proj2 (RN schema Es) _ _ _ I) Im).
      * destruct (find _ _) as [[alias ls]|] eqn:Ef; [|discriminate]. injection Ek as <-. cbn [fst snd descending]. split; [reflexivity|]. split; [discriminate|].
        intros sc Esc Im. apply find_some in Ef. destruct Ef as [If Ef]. cbn [snd] in Ef. apply text_eqb_spec in Ef. subst ls.
        exact (proj2 (proj2 (RN schema Es) _ _ _ I) alias If).
Qed.
Lemma filter_le : forall A (f : A -> bool) l, (length (filter f l) <= length l)%nat.
Proof. intros A f l. induction l as [|x l IH]; [reflexivity|]. cbn [filter]. destruct (f x); cbn [length]; lia. Qed.
Lemma filter_all : forall A (f : A -> bool) l, (length l <= length (filter f l))%nat -> filter f l = l /\ forall x, In x l -> f x = true.
Proof.
  intros A f l. induction l as [|x l IH]; intros H; [split; [reflexivity|intros ? []]|]. cbn [filter length] in *. destruct (f x) eqn:E.
  - cbn [length] in H. destruct IH as [I1 I2]; [lia|]. rewrite I1. split; [reflexivity|]. intros y [<-|J]; auto.
  - pose proof (filter_le _ f l). lia.
Qed.

Lemma filter_keep : forall A B (f : A -> B) p l, keep p (map f l) = map f (filter (fun x => match p with Some h => h (f x) | None => true end) l).
Proof.
  intros A B f p l. destruct p as [h|]; cbn [keep]; induction l as [|x l IH]; cbn [map filter]; try reflexivity; [|f_equal; exact IH].
  destruct (h (f x)); cbn [map]; rewrite IH; reflexivity.
Qed.
(** The two possible outcomes of compile_order. *)
Lemma order_cases : forall A q (field : text -> A -> K) key_out o p, compile_order Row Out q = Ok (o, p) ->
  source_names q -> result_names q field key_out ->
  (p = [] /\ forall x y, le_by K leK src_field o x y = order_le key (s_order _ _ q) x y) \/
  (exists keys k', p = [PSort keys] /\ (forall x y, le_by K leK field keys x y = order_le key_out (s_order _ _ q) x y) /\
     sublist k' (map (fun it => (key it, descending it)) (s_order _ _ q)) /\ (forall x y, le_by K leK src_field o x y = lex_le leK k' x y)).
Proof.
  intros A q field key_out o p E SN RN. unfold compile_order in E.
  destruct (order_keys Row Out q (s_order Row Out q)) as [ks|] eqn:Eks; [|discriminate]. cbn [bind] in E. cbv zeta in E.
  pose proof (order_keys_spec A q field key_out _ ks (incl_refl _) Eks RN) as F.
  destruct (length (map fst (filter snd ks)) <? length (map fst ks))%nat eqn:EL.
  - right. assert (G : (exists schema, s_schema Row Out q = Some schema /\ forallb (fun k => memb (fst k) schema) (map fst ks) = true) /\
        o = map fst (filter snd ks) /\ p = [PSort (map fst ks)]).
    { destruct (s_schema Row Out q) as [schema|] eqn:Es.
      - destruct (forallb _ _) eqn:Ef; [|discriminate]. injection E as <- <-. eauto.
      - exfalso. apply Nat.ltb_lt in EL. rewrite !map_length in EL. revert EL Eks. clear -Es. generalize (s_order Row Out q). intros l. revert ks.
        induction l as [|it l IH]; intros ks EL Eks; cbn [order_keys] in Eks; [injection Eks as <-; cbn in EL; lia|].
        destruct it as [table name d|]; cbn [order_key] in Eks; [|rewrite Es in Eks; discriminate]. unfold pushed in Eks. rewrite Es in Eks. cbn [bind] in Eks.
        destruct (order_keys Row Out q l); [|discriminate]. injection Eks as <-. cbn [filter snd length] in EL. apply (IH a); [lia|reflexivity]. }
    destruct G as ((schema & Es & Ef) & -> & ->). exists (map fst ks).
    assert (Ex : exists k', sublist k' (map (fun it => (key it, descending it)) (s_order _ _ q)) /\
                   Forall2 (fun a b => snd a = snd b /\ forall x, fst a x = fst b x) (map (fun k => (src_field (fst k), snd k)) (map fst (filter snd ks))) k').
    { clear -F SN. induction F as [|it [[n d] b] l ks (F1 & F2 & _) F IH]; [exists []; split; constructor|]. cbn [fst snd] in F1, F2.
      destruct IH as (k' & S & F'). cbn [filter snd]. destruct b.
      - exists ((key it, descending it) :: k'). split; [cbn [map]; constructor; exact S|]. cbn [map fst snd]. constructor; [|exact F'].
        cbn [fst snd]. split; [exact F1|]. exact (F2 SN eq_refl).
      - exists k'. split; [cbn [map]; constructor; exact S|exact F']. }
    destruct Ex as (k' & S & F2). exists k'. split; [reflexivity|]. split; [|split; [exact S|]].
    + intros x y. rewrite le_by_lex. apply lex_le_ext. rewrite forallb_forall in Ef. clear E EL S F2 Eks.
      assert (Ef' : forall k, In k ks -> In (fst (fst k)) schema) by (intros k I; apply memb_In, Ef, in_map, I). clear Ef.
      induction F as [|it [[n d] b] l ks (F1 & _ & F3) F IH]; [constructor|]. cbn [map fst snd] in *. constructor.
      * cbn [fst snd]. split; [exact F1|]. apply (F3 schema Es). apply (Ef' _ (or_introl eq_refl)).
      * apply IH. intros k I. apply Ef'. right. exact I.
    + intros x y. rewrite le_by_lex. apply lex_le_ext. exact F2.
  - left. injection E as <- <-. split; [reflexivity|]. apply Nat.ltb_ge in EL. rewrite !map_length in EL. destruct (filter_all _ _ _ EL) as [-> All].
    intros x y. rewrite le_by_lex. apply lex_le_ext. clear EL Eks. induction F as [|it [[n d] b] l ks (F1 & F2 & _) F IH]; [constructor|].
    cbn [map fst snd] in *. constructor.
    + cbn [fst snd]. split; [exact F1|]. apply (F2 SN). apply (All _ (or_introl eq_refl)).
    + apply IH. intros k I. apply All. right. exact I.
Qed.
Lemma order_le_total : forall A (k : order_item -> A -> K) l, total_preorder (order_le k l).
Proof. intros. apply lex_total. exact TK. Qed.

(** C35, SELECT without aggregates, windows, GROUP BY and DISTINCT: the result is made of the rows passing WHERE, sorted by all keys,
    ties in the order of the source. *)
Theorem order_by_rows : forall q source l, select_kind _ _ q = Ok KPlain ->
  source_names q -> result_names q (fun n r => out_field n (out r)) key ->
  run (with_limit q None None) source = Ok l ->
  exists rows, sorted_as (order_le key (s_order _ _ q)) (keep (s_predicate _ _ q) source) rows /\
               l = keep (s_having _ _ q) (map out rows).
Proof.
  intros q src l EK SN RN R. unfold run, run_select, compile_select in R. rewrite order_with_limit in R.
  destruct (compile_order Row Out q) as [[o p]|] eqn:EO; [|discriminate]. cbn [bind fst snd] in R.
  unfold compile_limit in R. cbn [s_limit s_offset with_limit] in R. change (negb (0 =? 0) || (0 <? 0))%bool with false in R. cbv iota zeta in R.
  change (select_kind Row Out (with_limit q None None)) with (select_kind Row Out q) in R. rewrite EK in R. cbn [bind] in R. injection R as <-.
  unfold run_task. cbn [t_pipelines t_having t_kind t_predicate t_limit t_orders s_predicate s_having with_limit compute].
  change (take 0 (sort (le_by K leK src_field o) src)) with (sort (le_by K leK src_field o) src).
  set (le := order_le key (s_order Row Out q)). pose proof (order_le_total Row key (s_order Row Out q)) as T. fold le in T.
  destruct (order_cases Row q _ key o p EO SN RN) as [[-> Le]|(keys & k' & -> & Lo & S & Ls)].
  - cbn [fold_left]. exists (keep (s_predicate Row Out q) (sort (le_by K leK src_field o) src)). split; [|reflexivity].
    rewrite (sort_ext _ _ le _ Le). destruct (s_predicate Row Out q); cbn [keep]; [apply sorted_as_filter|]; apply sort_sorted_as; exact T.
  - cbn [fold_left apply_pipeline]. rewrite (sort_ext _ _ _ src Ls).
    assert (T' : total_preorder (lex_le leK k')) by (apply lex_total, TK).
    assert (EP : keep (s_predicate Row Out q) (sort (lex_le leK k') src) = sort (lex_le leK k') (keep (s_predicate Row Out q) src)).
    { destruct (s_predicate Row Out q); cbn [keep]; [symmetry; apply sort_filter; exact T'|reflexivity]. }
    rewrite EP, filter_keep, sort_map.
    assert (Lo' : forall x y, le_by K leK out_field keys (out x) (out y) = le x y).
    { intros x y. unfold le. rewrite <- (Lo x y). clear. induction keys as [|[n d] r IH]; [reflexivity|]. cbn [le_by]. rewrite IH. reflexivity. }
    rewrite (sort_ext _ _ le _ Lo'). rewrite (sort_filter _ le _ _ T), <- filter_keep.
    eexists. split; [|reflexivity]. apply sort_after_coarser; [exact T|exact T'|]. intros x y E. eapply lex_equiv_sub; [exact S|exact E].
Qed.

(** C35, SELECT with aggregates or windows, or collapsing rows. [collapse]: how the rows are collapsed. When every key of ORDER BY is a
    column of the table, the result is sorted provided each result row comes from the first of its source rows, in order,
    and has the keys of that row; otherwise it is sorted by the keys of the result rows, ties in order of appearance. *)
Theorem order_by_groups : forall q source l k key_out, select_kind _ _ q = Ok k ->
  source_names q -> result_names q out_field key_out ->
  (forall rows, exists firsts, sublist firsts rows /\
     Forall2 (fun r o => forall it, In it (s_order _ _ q) -> key it r = key_out it o) firsts
             (compute Row Out out aggregated grouped distinct k rows)) ->
  run (with_limit q None None) source = Ok l ->
  StronglySorted (fun x y => order_le key_out (s_order _ _ q) x y = true) l /\
  forall o keys, compile_order _ _ q = Ok (o, [PSort keys]) ->
    sorted_as (order_le key_out (s_order _ _ q))
      (keep (s_having _ _ q) (compute Row Out out aggregated grouped distinct k (keep (s_predicate _ _ q) (sort (le_by K leK src_field o) source)))) l.
Proof.
  intros q src l k key_out EK SN RN First R. unfold run, run_select, compile_select in R. rewrite order_with_limit in R.
  destruct (compile_order Row Out q) as [[o p]|] eqn:EO; [|discriminate]. cbn [bind fst snd] in R.
  unfold compile_limit in R. cbn [s_limit s_offset with_limit] in R. change (negb (0 =? 0) || (0 <? 0))%bool with false in R. cbv iota zeta in R.
  change (select_kind Row Out (with_limit q None None)) with (select_kind Row Out q) in R. rewrite EK in R. cbn [bind] in R. injection R as <-.
  unfold run_task. cbn [t_pipelines t_having t_kind t_predicate t_limit t_orders s_predicate s_having with_limit].
  change (take 0 (sort (le_by K leK src_field o) src)) with (sort (le_by K leK src_field o) src).
  pose proof (order_le_total Out key_out (s_order Row Out q)) as T.
  destruct (order_cases Out q _ key_out o p EO SN RN) as [[-> Le]|(keys & k' & -> & Lo & S & Ls)].
  - split; [|intros o' keys E; discriminate E]. cbn [fold_left].
    destruct (First (keep (s_predicate Row Out q) (sort (le_by K leK src_field o) src))) as (firsts & Sub & F2).
    assert (SS : StronglySorted (fun x y => order_le key (s_order Row Out q) x y = true) firsts).
    { eapply sublist_sorted; [exact Sub|]. rewrite (sort_ext _ _ (order_le key (s_order Row Out q)) _ Le).
      assert (S0 : StronglySorted (fun x y => order_le key (s_order Row Out q) x y = true) (sort (order_le key (s_order Row Out q)) src)) by apply sort_sorted, order_le_total.
      destruct (s_predicate Row Out q) as [pr|]; cbn [keep]; [|exact S0]. eapply sublist_sorted; [apply sublist_filter|exact S0]. }
    assert (SO : forall os, Forall2 (fun r o => forall it, In it (s_order Row Out q) -> key it r = key_out it o) firsts os ->
        StronglySorted (fun x y => order_le key_out (s_order Row Out q) x y = true) os).
    { clear -SS. intros os F. induction F as [|r o firsts os H F IH]; [constructor|]. apply StronglySorted_inv in SS. destruct SS as [SS Fo].
      constructor; [apply IH, SS|]. clear IH SS. induction F as [|r' o' firsts os H' F IH]; [constructor|]. inversion Fo as [|? ? Lr Fo']; subst. constructor; [|apply IH, Fo'].
      rewrite <- Lr. unfold order_le. clear -H H'. induction (s_order Row Out q) as [|it l IH]; [reflexivity|]. cbn [map lex_le].
      rewrite !(H it (or_introl eq_refl)), !(H' it (or_introl eq_refl)), IH; [reflexivity| |]; intros; [apply H|apply H']; right; assumption. }
    specialize (SO _ F2). destruct (s_having Row Out q); cbn [keep]; [|exact SO]. eapply sublist_sorted; [apply sublist_filter|exact SO].
  - cbn [fold_left apply_pipeline]. rewrite (sort_ext _ _ _ _ Lo). split; [apply sort_sorted, T|].
    intros o' keys' E. injection E as <- <-. apply sort_sorted_as, T.
Qed.
End Limit.
Print Assumptions limit_page.
Print Assumptions offset_only.
Print Assumptions limit_before_collapsing.
Print Assumptions order_by_rows.
Print Assumptions order_by_groups.

(** C233, C234, C235: SELECT with joins, WHERE, ORDER BY, LIMIT and OFFSET. *)
From Coq Require Import Permutation Sorting.Sorted.
From Verif Require Import Base PyVal Select_Model Select_Spec Select_Proofs Select_Props Joins_Syntax Joins_Spec Joins_Model Joins_Proofs Joins_Accept
  Joins_Props Joinsel_Syntax Joinsel_Spec Joinsel_Model Joinsel_Proofs.
Open Scope Z_scope.

Section Props.
Variable cmpv : cmp -> val -> val -> bool.
Variable leK : val -> val -> bool.
Variable d : db.
Variable p : text.
Hypothesis NR : null_rejecting cmpv.
Hypothesis SY : eq_symmetric cmpv.
Hypothesis TK : total_preorder leK.

(** What is asked of the names: the first table has one, ORDER BY columns have no empty table name, ORDER BY is clear. *)
Definition well_named (aliased : bool) (st : jselect) : Prop :=
  p <> [] /\ (forall c desc, In (c, desc) (j_order st) -> ctab c <> Some []) /\ clear_order p aliased st.
(** LIMIT 0 is not a limit for the compiler. *)
Definition positive_limit (st : jselect) : Prop := forall n, j_limit st = Some n -> 0 < n.

(** An item of ORDER BY on a combination. *)
Definition item_key (items : list (text * operand)) (it : order_item) : env -> val :=
  match it with
  | Select_Model.OCol table name _ => order_value p items (Col (match table with [] => None | _ => Some table end) name)
  | OExp _ _ _ => fun _ => VNone
  end.
Lemma same_order : forall st, (forall c desc, In (c, desc) (j_order st) -> ctab c <> Some []) ->
  order_le val leK (item_key (j_items st))
    (map (fun k => Select_Model.OCol (match ctab (fst k) with Some tb => tb | None => [] end) (cname (fst k)) (snd k)) (j_order st)) = order_of leK p st.
Proof.
  intros st H. unfold order_le, order_of. f_equal. rewrite map_map. apply map_ext_in. intros [c desc] I. cbn [fst snd descending item_key].
  specialize (H c desc I). destruct c as [[[|ch tb]|] n]; cbn [ctab cname] in *; [exfalso; apply H; reflexivity|reflexivity..].
Qed.

Lemma assoc_items : forall (items : list (text * operand)) n, In n (map fst items) -> exists o, assoc n items = Some o /\ In (n, o) items.
Proof.
  induction items as [|[m o] items IH]; intros n I; [destruct I|]. cbn [assoc map fst] in *. destruct (text_eqb n m) eqn:E.
  - apply text_eqb_spec in E. subst m. exists o. split; [reflexivity|left; reflexivity].
  - destruct I as [->|I]; [rewrite text_eqb_refl in E; discriminate|]. destruct (IH n I) as (o' & A & B). exists o'. split; [exact A|right; exact B].
Qed.
Lemma assoc_not : forall (items : list (text * operand)) n, ~ In n (map fst items) -> assoc n items = None.
Proof.
  induction items as [|[m o] items IH]; intros n H; [reflexivity|]. cbn [assoc map fst] in *. destruct (text_eqb n m) eqn:E.
  - apply text_eqb_spec in E. exfalso. apply H. left. congruence.
  - apply IH. intros I. apply H. right. exact I.
Qed.
Lemma made_field : forall items n o e, assoc n items = Some o -> field n (make_row p items e) = oval p e o.
Proof.
  intros items n o e. unfold field, make_row. induction items as [|[m o'] items IH]; intros H; [discriminate|]. cbn [assoc map fst snd] in *.
  destruct (text_eqb n m); [injection H as ->; reflexivity|exact (IH H)].
Qed.

Lemma flat_map_single : forall A B C (g : A -> B) (f : B -> list C) l, flat_map f (map g l) = flat_map (fun x => f (g x)) l.
Proof. intros. induction l as [|x l IH]; [reflexivity|]. cbn [map flat_map]. rewrite IH. reflexivity. Qed.

(** The compiled task works on the joined rows as it would on the rows of one table. *)
Lemma joined_rows : forall aliased st q l, qfrom q = [p] -> (forall j, In j (qjoins q) -> jtab j <> p) ->
  all_selected (map jtab (qjoins q)) st -> (forall a, In a (qwhere q) -> upright a) -> well_named aliased st -> positive_limit st ->
  (j_limit st = None \/ computed_later (select_of cmpv aliased p q st) \/
   forall r, In r (d p) -> forall e, run_joins cmpv d p (qjoins q) [[(p, Some r)]] = Ok e -> length e = 1%nat) ->
  run_compiled cmpv leK d aliased st q = Ok l ->
  exists es rows, execute cmpv d q = Ok es /\ sorted_as (order_of leK p st) es rows /\
    l = paged (j_limit st) (j_offset st) (map (result_row p (j_items st)) rows).
Proof.
  intros aliased st q l Hf Hp Sel Up (Np & Ne & Clear) PL Lim H. unfold run_compiled in H. rewrite Hf in H.
  destruct (run_joins cmpv d p (qjoins q) []) as [x0|] eqn:E0; [|discriminate]. cbn [bind] in H. cbv zeta in H.
  destruct (run_joins_flat cmpv d p _ _ _ E0) as (J & HJ & HP). clear E0 x0.
  set (need := tables_of _) in H. destruct (known_tables p (qjoins q) need); [|discriminate].
  destruct (needed_all (qjoins q) need) as (rest & En).
  { intros j I. destruct (Sel (jtab j) (in_map jtab _ _ I)) as (n & o & IO & c & Ic & Ec).
    unfold need, tables_of. apply in_flat_map. exists c. split.
    - apply in_or_app. left. apply in_flat_map. exists (n, o). split; [exact IO|exact Ic].
    - rewrite Ec. left. reflexivity. }
  rewrite En in H. cbn [fst] in H. clear En rest. set (sel := select_of cmpv aliased p q st) in *.
  destruct (compile_select env output sel) as [k|] eqn:Ek; [|discriminate]. cbn [bind] in H. rewrite HJ in H. cbn [bind] in H. injection H as H.
  set (K := fun r : row => J [(p, Some r)]).
  assert (KR : forall r x, In x (K r) -> row_of p x = r).
  { intros r x X. destruct (HP _ _ X) as (pre & -> & Q). apply row_of_primary. intros n N. apply Q in N. apply in_map_iff in N.
    destruct N as (j & <- & I). exact (Hp j I). }
  set (col_field := fun n (e : env) => cval p e (Col (Some p) n)).
  assert (LE : forall o x y, le_by val leK col_field o x y = le_by val leK cell o (row_of p x) (row_of p y)).
  { intros o x y. rewrite !le_by_lex. induction o as [|[n b] o IH]; [reflexivity|]. cbn [map lex_le fst snd]. rewrite IH.
    unfold col_field. rewrite <- !row_of_cell. destruct b; reflexivity. }
  set (es0 := flat_map K (filter (meets cmpv p (qwhere q)) (d p))).
  assert (R1 : t_limit k = 0 \/ forall r, In r (sort (le_by val leK cell (t_orders k)) (filter (meets cmpv p (qwhere q)) (d p))) -> length (K r) = 1%nat).
  { destruct Lim as [L|[L|L]]; [left; apply (later_no_limit _ _ sel k Ek); left; exact L|left; apply (later_no_limit _ _ sel k Ek); right; exact L|right].
    intros r R. apply sort_in in R. apply filter_In in R. apply (L r (proj1 R)). rewrite HJ. cbn [flat_map]. rewrite app_nil_r. reflexivity. }
  assert (TR : total_preorder (le_by val leK cell (t_orders k))).
  { pose proof (lex_total row val leK TK (map (fun k => (cell (fst k), snd k)) (t_orders k))) as [T1 T2].
    split; [intros a b; rewrite !le_by_lex; apply T1|intros a b c; rewrite !le_by_lex; apply T2]. }
  rewrite flat_map_single in H. fold K in H. change (fun x => J [(p, Some x)]) with K in H.
  rewrite (flat_take _ _ K _ (t_limit k) R1) in H.
  rewrite (flat_sort _ _ K (row_of p) _ (le_by val leK col_field (t_orders k)) _ TR (LE (t_orders k)) KR) in H. fold es0 in H.
  assert (KP : t_kind k = KPlain /\ t_having k = None).
  { unfold compile_select in Ek. destruct (compile_order env output sel) as [op|]; [|discriminate]. cbn [bind] in Ek.
    destruct (compile_limit env output sel (snd op)) as [pl lim]. change (select_kind env output sel) with (Ok KPlain) in Ek. cbn [bind] in Ek.
    injection Ek as <-. split; reflexivity. }
  destruct KP as [KP KH].
  set (q2 := unaliased env output sel).
  assert (Ek2 : compile_select env output q2 = Ok k) by (exact (unaliased_compiled env output sel _ k eq_refl Ek)).
  assert (RS : run_select env output val leK col_field field (make_row p (j_items st)) (fun _ => []) (fun _ => []) (fun _ => []) q2 es0 = Ok l).
  { unfold run_select. rewrite Ek2. cbn [bind]. f_equal. unfold run_task. rewrite KP, KH. cbn [compute keep]. exact H. }
  rewrite select_paged in RS; [|reflexivity|exact PL].
  destruct (run_select env output val leK col_field field (make_row p (j_items st)) (fun _ => []) (fun _ => []) (fun _ => []) (with_limit q2 None None) es0) as [l0|] eqn:R0; [|discriminate].
  cbn [bind] in RS. change (s_limit env output q2) with (j_limit st) in RS. change (s_offset env output q2) with (j_offset st) in RS.
  assert (El : l = paged (j_limit st) (j_offset st) l0) by congruence. clear RS H.
  destruct (order_by_rows env output val leK col_field field (make_row p (j_items st)) (fun _ => []) (fun _ => []) (fun _ => []) TK (item_key (j_items st)) q2 es0 l0)
    as (rows & So & Eo); [reflexivity| | |exact R0|].
  - (* names of the source *)
    intros table name desc I Hs e. cbn [q2 unaliased s_schema sel select_of s_table s_columns s_aggregate s_order] in I, Hs.
    apply in_map_iff in I. destruct I as ([c b] & Ec & I). cbn [fst snd] in Ec. injection Ec as E1 E2 E3. subst name b.
    specialize (Ne c desc I). unfold col_field. cbn [item_key]. destruct Hs as [[-> Hn]|[-> [_ Hs]]].
    + destruct p as [|ch p'] eqn:Ep; [congruence|]. unfold order_value. cbn [ctab]. reflexivity.
    + assert (Ct : ctab c = None) by (destruct c as [[[|ch tb]|] n]; cbn [ctab] in *; [exfalso; apply Ne; reflexivity|discriminate E1|reflexivity]).
      unfold order_value. cbn [ctab cname]. destruct (in_dec text_eq_dec (cname c) (map fst (j_items st))) as [Iin|Iout].
      * destruct (assoc_items _ _ Iin) as (o & -> & Io). destruct Hs as [Hs|Hs]; [|contradiction].
        assert (Al : has_alias env output sel = true -> False).
        { intros A. rewrite A in Hs. apply filter_In in Hs. destruct Hs as [_ Hs]. apply negb_true_iff in Hs.
          apply memb_In in Iin. congruence. }
        destruct (Clear c desc o I Io) as [C|[_ [C|C]]].
        -- rewrite C. unfold cval. rewrite Ct. cbn [ctab]. reflexivity.
        -- exfalso. apply Al. unfold has_alias. cbn [sel select_of s_alias]. rewrite C. destruct p; [congruence|reflexivity].
        -- exfalso. apply C. destruct (has_alias env output sel); [exfalso; apply Al; reflexivity|exact Hs].
      * rewrite (assoc_not _ _ Iout). unfold cval. cbn [ctab]. reflexivity.
  - (* names of the result *)
    intros schema Es. cbn [q2 unaliased s_schema sel select_of] in Es. injection Es as <-. split.
    + intros table name desc I Iin e. cbn [q2 unaliased s_order sel select_of] in I. apply in_map_iff in I. destruct I as ([c b] & Ec & I).
      cbn [fst snd] in Ec. injection Ec as E1 E2 E3. subst name b. destruct (assoc_items _ _ Iin) as (o & Ao & Io).
      rewrite (made_field _ _ _ e Ao). cbn [item_key]. unfold order_value. cbn [ctab cname]. destruct table as [|ch table].
      * rewrite Ao. reflexivity.
      * destruct (Clear c desc o I Io) as [C|[C _]].
        -- rewrite C. destruct c as [[tb|] n]; cbn [ctab cname] in *; [subst tb; reflexivity|discriminate].
        -- rewrite C in E1. discriminate.
    + intros sql lsql desc I. cbn [q2 unaliased s_order sel select_of] in I. apply in_map_iff in I. destruct I as (? & Ec & _). discriminate.
  - exists (keep (predicate cmpv p (qwhere q)) es0), rows. split; [|split].
    + unfold execute. rewrite Hf, HJ. f_equal. rewrite flat_map_single. change (fun x => J [(p, Some x)]) with K. unfold es0.
      rewrite keep_residual, !filter_flat_map, flat_map_filter. apply flat_map_ext_in. intros r R.
      destruct (meets cmpv p (qwhere q) r) eqn:M.
      * apply filter_ext_in'. intros x X. rewrite (where_split cmpv p SY (qwhere q) x Up), (KR r x X), M. reflexivity.
      * apply filter_none. intros x X. rewrite (where_split cmpv p SY (qwhere q) x Up), (KR r x X), M. reflexivity.
    + change (s_order env output q2) with
        (map (fun k => Select_Model.OCol (match ctab (fst k) with Some tb => tb | None => [] end) (cname (fst k)) (snd k)) (j_order st)) in So.
      rewrite (same_order st Ne) in So. exact So.
    + rewrite El, Eo. reflexivity.
Qed.

(** ** When the loader gets no limit *)
Lemma on_first_pushed : forall a, on_first p a = pushed_to cmpv p a.
Proof.
  intros a. unfold on_first, pushed_to. destruct a as [o l r|l f|cs f]; [| |reflexivity]; cbn [push].
  - destruct l as [c|cs f]; cbn [col_of].
    + unfold of_primary. destruct (match ctab c with Some tb => text_eqb tb p | None => true end).
      * destruct r as [c'|[|c0 cs'] f']; cbn [ocolumns andb orb]; rewrite ?andb_false_r; reflexivity.
      * cbn [andb orb]. rewrite andb_false_r. reflexivity.
    + cbn [andb orb]. destruct r as [c'|cs' f']; cbn [col_of]; [|reflexivity]. unfold of_primary.
      destruct (match ctab c' with Some tb => text_eqb tb p | None => true end); [|reflexivity]. destruct cs as [|c0 cs]; reflexivity.
  - destruct l as [c|cs g]; cbn [col_of]; [|reflexivity]. unfold of_primary.
    destruct (match ctab c with Some tb => text_eqb tb p | None => true end); reflexivity.
Qed.
Lemma where_later : forall aliased st q a, In a (qwhere q) -> on_first p a = false -> computed_later (select_of cmpv aliased p q st).
Proof.
  intros aliased st q a I H. left. cbn [select_of s_predicate]. unfold predicate.
  assert (R : In a (residual cmpv p (qwhere q))) by (apply filter_In; split; [exact I|rewrite <- on_first_pushed, H; reflexivity]).
  destruct (residual cmpv p (qwhere q)); [destruct R|discriminate].
Qed.
Lemma order_later : forall aliased st q c desc tb k, In (c, desc) (j_order st) -> ctab c = Some tb -> tb <> p -> tb <> [] ->
  compile_select env output (select_of cmpv aliased p q st) = Ok k -> computed_later (select_of cmpv aliased p q st).
Proof.
  intros aliased st q c desc tb k I Ct Ntb Ne H. right. right. right. unfold compile_select in H.
  destruct (compile_order env output (select_of cmpv aliased p q st)) as [[o ps]|] eqn:E; [|discriminate]. exists o. clear H.
  destruct (order_shape env output _ _ _ E) as [->|(ks & ->)]; [exfalso|eauto].
  unfold compile_order in E. destruct (order_keys env output (select_of cmpv aliased p q st) (s_order env output (select_of cmpv aliased p q st))) as [ks|] eqn:Ek; [|discriminate].
  cbn [bind] in E. cbv zeta in E.
  assert (K : In (cname c, desc, false) ks).
  { assert (Io : In (Select_Model.OCol tb (cname c) desc) (s_order env output (select_of cmpv aliased p q st))).
    { cbn [select_of s_order]. apply in_map_iff. exists (c, desc). cbn [fst snd]. rewrite Ct. split; [reflexivity|exact I]. }
    pose proof (keys_in env output _ _ ks Ek tb (cname c) desc Io) as K. unfold pushed in K. cbn [select_of s_schema s_table] in K.
    destruct tb as [|ch tb]; [congruence|]. destruct (text_eqb p (ch :: tb)) eqn:Ep; [apply text_eqb_spec in Ep; congruence|exact K]. }
  destruct (length (map fst (filter snd ks)) <? length (map fst ks))%nat eqn:EL.
  - cbn [select_of s_schema] in E. destruct (forallb _ _) in E; discriminate.
  - apply Nat.ltb_ge in EL. rewrite !map_length in EL. destruct (Select_Props.filter_all _ _ _ EL) as [_ All]. specialize (All _ K). discriminate.
Qed.

(** Each join gives one row when there is at most one match. *)
Lemma lefts_single : forall js, single_match cmpv p d js -> forall e, length (lefts cmpv p d js [e]) = 1%nat.
Proof.
  induction js as [|j js IH]; intros S e; [reflexivity|]. unfold lefts. cbn [fold_left]. unfold left_join at 2. cbn [flat_map]. rewrite app_nil_r.
  pose proof (S j e (or_introl eq_refl)) as L. assert (S' : single_match cmpv p d js) by (intros i x I; apply S; right; exact I).
  destruct (matches cmpv p d (jtab j) (jon j) e) as [|x [|y z]]; [exact (IH S' _)|exact (IH S' _)|cbn [length] in L; lia].
Qed.

(** *** LEFT JOIN *)
(** C233, C235: every join is a LEFT JOIN and each joined table is read by the select list. With LIMIT: some WHERE conjunct is not a comparison of a
    column of the first table with constants, or an ORDER BY column is of another table, or each combination meets at most one row of
    each joined table. *)
Theorem left_select : forall fuel aliased st l, one_table p (j_query st) ->
  (forall j, In j (qjoins (j_query st)) -> jside j = SLeft /\ jkind j = KNone) ->
  all_selected (map jtab (qjoins (j_query st))) st -> (forall a, In a (qwhere (j_query st)) -> upright a) ->
  well_named aliased st -> positive_limit st ->
  (j_limit st = None \/ (exists a, In a (qwhere (j_query st)) /\ on_first p a = false) \/
   (exists c desc tb, In (c, desc) (j_order st) /\ ctab c = Some tb /\ tb <> p) \/ single_match cmpv p d (qjoins (j_query st))) ->
  run_joinsel cmpv leK d fuel aliased st = Some (Ok l) -> answers cmpv leK p d st l.
Proof.
  intros fuel aliased st l One Left Sel Up Nm PL Lim H. pose proof One as (Hf & Hsc & Hpl).
  assert (Ho : optimize fuel (j_query st) = Some (j_query st)).
  { unfold optimize. rewrite (single_from _ _ Hf). rewrite no_right by (intros j Hj E; destruct (Left j Hj); congruence).
    rewrite no_inner by (intros j Hj E; destruct (Left j Hj); congruence). now destruct (qjoins (j_query st)). }
  unfold run_joinsel in H. rewrite Ho in H. injection H as H.
  assert (Hq : forall j a, In j (qjoins (j_query st)) -> In a (jon j) -> on_clean (jtab j) a /\ qualified a).
  { intros j a Hj Ha. split; [exact (proj2 (Hpl j Hj) a Ha)|exact (scoped_qualified _ _ Hsc j a Hj Ha)]. }
  destruct (joined_rows aliased st (j_query st) l Hf) as (es & rows & Ex & So & El); try assumption.
  - apply (scoped_neq _ [p]); [now left|exact Hsc].
  - destruct Lim as [L|[(a & I & L)|[(c & desc & tb & I & Ct & N)|L]]]; [left; exact L|right; left; eapply where_later; eassumption| |right; right].
    + right. left. unfold run_compiled in H. rewrite Hf in H. destruct (run_joins cmpv d p _ []) in H; [|discriminate]. cbn [bind] in H.
      cbv zeta in H. destruct (known_tables _ _ _) in H; [|discriminate].
      destruct (compile_select env output _) as [k|] eqn:Ek in H; [|discriminate].
      eapply order_later; [exact I|exact Ct|exact N| |exact Ek]. intros ->. exact (proj1 (proj2 Nm) c desc I Ct).
    + intros r R e E. apply run_joins_lefts in E; [|exact SY|exact Hq]. subst e. apply lefts_single. exact L.
  - exists rows. split; [|exact El].
    pose proof (left_joins_correct cmpv d fuel p (j_query st) NR SY One Left) as LC. unfold run_query in LC. rewrite Ho, Ex in LC.
    injection LC as ->. exact So.
Qed.

(** *** INNER JOIN *)
(** C234: every join is an INNER JOIN tied to the first table; any LIMIT. *)
Theorem inner_select : forall fuel aliased st l, one_table p (j_query st) -> qjoins (j_query st) <> [] ->
  (forall j a, In j (qjoins (j_query st)) -> In a (jon j) -> strict_atom a) ->
  (forall j, In j (qjoins (j_query st)) -> jkind j = KInner /\ jside j = SNone /\ linked p j = true) ->
  all_selected (map jtab (qjoins (j_query st))) st -> (forall a, In a (qwhere (j_query st)) -> upright a) ->
  well_named aliased st -> positive_limit st ->
  run_joinsel cmpv leK d fuel aliased st = Some (Ok l) -> answers cmpv leK p d st l.
Proof.
  intros fuel aliased st l One Ne Strict Inner Sel Up Nm PL H. pose proof One as (Hf & Hsc & Hpl). set (q := j_query st) in *.
  assert (Ho : optimize fuel q = Some (inner_rewrite q)).
  { unfold optimize. rewrite (single_from q p Hf). rewrite no_right by (intros j Hj E; destruct (Inner j Hj) as (_ & E' & _); congruence).
    destruct (qjoins q) as [|j js]; [congruence|]. cbn [existsb]. destruct (Inner j (or_introl eq_refl)) as (-> & _). reflexivity. }
  unfold run_joinsel in H. fold q in H. rewrite Ho in H. injection H as H.
  destruct (inner_fields p (qjoins q)) as [|c cs] eqn:Ef.
  { exfalso. assert (E : inner_rewrite q = q) by (unfold inner_rewrite; rewrite Hf, Ef; reflexivity). rewrite E in H. unfold run_compiled in H. rewrite Hf in H.
    destruct (qjoins q) as [|j js]; [congruence|]. cbn [run_joins] in H. unfold join_type_ok in H.
    destruct (Inner j (or_introl eq_refl)) as (Ek & _). rewrite Ek in H. cbn [andb] in H. discriminate. }
  assert (E : inner_rewrite q = Query [p] (map as_left (qjoins q)) (qwhere q ++ map not_null (c :: cs))) by (unfold inner_rewrite; rewrite Hf, Ef; reflexivity).
  rewrite E in H.
  destruct (joined_rows aliased st _ l (eq_refl : qfrom (Query [p] (map as_left (qjoins q)) (qwhere q ++ map not_null (c :: cs))) = [p]))
    as (es & rows & Ex & So & El); try assumption; cbn [qjoins qwhere].
  - intros j I. apply in_map_iff in I. destruct I as (j0 & <- & I). exact (scoped_neq _ [p] p (or_introl eq_refl) Hsc j0 I).
  - rewrite map_map. exact Sel.
  - intros a I. apply in_app_or in I. destruct I as [I|I]; [exact (Up a I)|]. apply in_map_iff in I. destruct I as (x & <- & _). exact I.
  - right. left. apply (where_later aliased st _ (not_null c)); [|reflexivity]. cbn [qwhere]. apply in_or_app. right. left. reflexivity.
  - exists rows. split; [|exact El].
    pose proof (inner_joins_correct cmpv d fuel p q NR SY One Strict Ne Inner) as IC. unfold run_query in IC. rewrite Ho, E, Ex in IC.
    injection IC as ->. exact So.
Qed.

(** *** FROM a, b, ... *)
(** C234: every further table is tied by WHERE to a constant or to tables before it; any LIMIT. *)
Theorem comma_select : forall fuel aliased st ts l, qfrom (j_query st) = p :: ts -> qjoins (j_query st) = [] -> ts <> [] ->
  tied (qwhere (j_query st)) [p] ts ->
  (forall a, In a (qwhere (j_query st)) -> forall c, In c (acols a) -> ctab c <> None) ->
  (forall o l r cs f, In (ACmp o l r) (qwhere (j_query st)) -> l = OExpr cs f \/ r = OExpr cs f -> forall c, In c cs -> ctab c = Some p) ->
  all_selected ts st -> (forall a, In a (qwhere (j_query st)) -> upright a) ->
  well_named aliased st -> positive_limit st ->
  run_joinsel cmpv leK d fuel aliased st = Some (Ok l) -> answers cmpv leK p d st l.
Proof.
  intros fuel aliased st ts l Hf Hj Ne Ti Qu Ex0 Sel Up Nm PL H.
  destruct (j_query st) as [fr js w] eqn:Eq. cbn [qfrom qjoins qwhere] in *. subst fr js.
  set (q := Query [p] (multi_joins [p] w ts) w).
  assert (Tabs : forall can, map jtab (multi_joins can w ts) = ts).
  { clear. induction ts as [|tb ts IH]; intros can; [reflexivity|]. cbn [multi_joins map jtab]. f_equal. apply IH. }
  assert (Ho : optimize fuel (Query (p :: ts) [] w) = Some q).
  { unfold optimize. assert (multi_select (Query (p :: ts) [] w) = q) as -> by (destruct ts; [congruence|reflexivity]).
    assert (Hall : forall j, In j (qjoins q) -> jside j = SLeft /\ jkind j = KNone).
    { cbn [q qjoins]. generalize [p]. clear. induction ts as [|tb ts IH]; intros can j Hj; [destruct Hj|].
      cbn [multi_joins] in Hj. destruct Hj as [<-|Hj]; [now split|]. exact (IH _ j Hj). }
    rewrite no_right by (intros j Hj E; destruct (Hall j Hj); congruence).
    rewrite no_inner by (intros j Hj E; destruct (Hall j Hj); congruence). now destruct (qjoins q). }
  unfold run_joinsel in H. rewrite Eq, Ho in H. injection H as H.
  assert (Np : ~ In p ts).
  { assert (G : forall ts can, In p can -> tied w can ts -> ~ In p ts).
    { clear. induction ts as [|tb ts IH]; intros can I T J0; [destruct J0|]. cbn [tied] in T. destruct T as (T1 & _ & T3). destruct J0 as [->|J]; [contradiction|].
      apply (IH (can ++ [tb])); [apply in_or_app; left; exact I|exact T3|exact J]. }
    apply (G ts [p]); [left; reflexivity|exact Ti]. }
  destruct (joined_rows aliased st q l eq_refl) as (es & rows & Ex & So & El); try assumption; cbn [q qjoins qwhere].
  - intros j I E. apply Np. rewrite <- (Tabs [p]). rewrite <- E at 1. apply in_map. exact I.
  - rewrite Tabs. exact Sel.
  - right. left. destruct ts as [|tb ts]; [congruence|]. cbn [tied] in Ti. destruct Ti as (T1 & (o & x & y & c & v & Iw & Ct & Sh & _) & _).
    apply (where_later aliased st q (ACmp o x y)); [exact Iw|].
    assert (Nt : text_eqb tb p = false) by (apply text_eqb_neq; intros ->; apply Np; left; reflexivity).
    unfold on_first. destruct Sh as [[-> ->]|[-> ->]]; rewrite Ct, Nt; cbn [andb orb]; [rewrite andb_false_r|rewrite andb_false_r]; reflexivity.
  - exists rows. split; [|exact El]. rewrite Eq.
    assert (CC : es = sql_query cmpv p d (Query (p :: ts) [] w)).
    { apply (comma_joins_correct cmpv d fuel p ts w es NR SY Ne Ti Qu Ex0). unfold run_query. rewrite Ho, Ex. reflexivity. }
    subst es. exact So.
Qed.
End Props.
Print Assumptions left_select.
Print Assumptions inner_select.
Print Assumptions comma_select.

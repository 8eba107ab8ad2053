(** C233, C237: which SELECTs over LEFT JOINs compile, joins that nothing reads; C235-C237: counterexamples; examples. *)
From Verif Require Import Base PyVal Select_Model Select_Spec Select_Props Joins_Syntax Joins_Spec Joins_Model Joins_Proofs Joins_Accept
  Joins_Props Joinsel_Syntax Joinsel_Spec Joinsel_Model Joinsel_Proofs Joinsel_Props Whole_Cases.
Open Scope Z_scope.

Section Accept.
Variable cmpv : cmp -> val -> val -> bool.
Variable leK : val -> val -> bool.
Variable d : db.
Variable p : text.

(** ORDER BY is taken when all its columns are of the first table, written with its name, or all have the name of a select item. *)
Definition orderable (st : jselect) : Prop :=
  (forall c desc, In (c, desc) (j_order st) -> ctab c = Some p) \/
  (forall c desc, In (c, desc) (j_order st) -> In (cname c) (map fst (j_items st))).
(** The tables that are read are in FROM or joined. *)
Definition reads_known (st : jselect) (ts : list text) : Prop :=
  (forall n o c tb, In (n, o) (j_items st) -> In c (ocols o) -> ctab c = Some tb -> In tb ts) /\
  (forall a c tb, In a (qwhere (j_query st)) -> In c (acols a) -> ctab c = Some tb -> In tb ts).

Lemma keys_of : forall (q : select env output) l,
  order_keys env output q (map (fun k : col * bool => Select_Model.OCol (match ctab (fst k) with Some tb => tb | None => [] end) (cname (fst k)) (snd k)) l) =
  Ok (map (fun k => (cname (fst k), snd k, pushed env output q (match ctab (fst k) with Some tb => tb | None => [] end) (cname (fst k)))) l).
Proof. intros q l. induction l as [|k l IH]; [reflexivity|]. cbn [map order_keys order_key bind]. rewrite IH. reflexivity. Qed.
Lemma order_accepts : forall aliased q st, p <> [] -> orderable st -> exists k, compile_select env output (select_of cmpv aliased p q st) = Ok k.
Proof.
  intros aliased q st Np O. unfold compile_select. assert (H : exists r, compile_order env output (select_of cmpv aliased p q st) = Ok r).
  { unfold compile_order. cbn [select_of s_order s_schema]. fold (select_of cmpv aliased p q st). rewrite keys_of. cbn [bind]. cbv zeta.
    match goal with |- context [if ?b then _ else _] => destruct b eqn:B end; [|eauto].
    destruct O as [O|O].
    - exfalso. apply Nat.ltb_lt in B. rewrite !map_length in B.
      rewrite Joins_Proofs.filter_all in B; [rewrite map_length in B; lia|]. intros k I. apply in_map_iff in I. destruct I as ([c b] & <- & I). cbn [snd fst].
      rewrite (O c b I). unfold pushed. cbn [select_of s_schema s_table]. destruct p as [|ch p']; [congruence|]. rewrite text_eqb_refl. reflexivity.
    - assert (F : forallb (fun k => memb (fst k) (map fst (j_items st)))
         (map fst (map (fun k => (cname (fst k), snd k, pushed env output (select_of cmpv aliased p q st) match ctab (fst k) with Some tb => tb | None => [] end (cname (fst k)))) (j_order st))) = true).
      { apply forallb_forall. intros k I. rewrite map_map in I. apply in_map_iff in I. destruct I as ([c b] & <- & I). cbn [fst].
        apply memb_In. exact (O c b I). }
      rewrite F. eauto. }
  destruct H as ([o ps] & ->). cbn [bind fst snd]. destruct (compile_limit _ _ _ _) as [pl lim]. eexists. reflexivity.
Qed.

Lemma known_ok : forall js need, (forall tb, In tb need -> In tb (p :: map jtab js)) -> known_tables p js need = true.
Proof.
  intros js need H. apply forallb_forall. intros tb I. destruct (H tb I) as [->|J]; [rewrite text_eqb_refl; reflexivity|].
  apply orb_true_iff. right. apply memb_In. exact J.
Qed.
Lemma tables_in : forall cs tb, In tb (tables_of cs) -> exists c, In c cs /\ ctab c = Some tb.
Proof.
  intros cs tb H. unfold tables_of in H. apply in_flat_map in H. destruct H as (c & I & H). exists c. split; [exact I|].
  destruct (ctab c); [destruct H as [->|[]]; reflexivity|destruct H].
Qed.

(** C233: such a SELECT compiles and runs. *)
Theorem left_select_accepted : forall fuel aliased st, p <> [] -> one_table p (j_query st) ->
  (forall j, In j (qjoins (j_query st)) -> jside j = SLeft /\ jkind j = KNone) ->
  all_selected (map jtab (qjoins (j_query st))) st -> reads_known st (p :: map jtab (qjoins (j_query st))) -> orderable st ->
  exists l, run_joinsel cmpv leK d fuel aliased st = Some (Ok l).
Proof.
  intros fuel aliased st Np (Hf & Hsc & Hpl) Left Sel (K1 & K2) O.
  assert (Ho : optimize fuel (j_query st) = Some (j_query st)).
  { unfold optimize. rewrite (single_from _ _ Hf). rewrite no_right by (intros j Hj E; destruct (Left j Hj); congruence).
    rewrite no_inner by (intros j Hj E; destruct (Left j Hj); congruence). now destruct (qjoins (j_query st)). }
  assert (RJ : forall es, exists res, run_joins cmpv d p (qjoins (j_query st)) es = Ok res).
  { intros es. apply run_joins_accepts.
    - intros j Hj. unfold join_type_ok. destruct (Left j Hj) as [-> ->]. reflexivity.
    - exact (scoped_qualified _ _ Hsc).
    - intros j Hj. exact (proj1 (Hpl j Hj)). }
  unfold run_joinsel. rewrite Ho. unfold run_compiled. rewrite Hf. destruct (RJ []) as (x0 & ->). cbn [bind]. cbv zeta.
  set (need := tables_of _). assert (N : forall tb, In tb need -> In tb (p :: map jtab (qjoins (j_query st)))).
  { intros tb I. apply tables_in in I. destruct I as (c & I & E). apply in_app_or in I. destruct I as [I|I]; apply in_flat_map in I; destruct I as (x & X & I).
    - destruct x as [n o]. exact (K1 n o c tb X I E).
    - apply filter_In in X. exact (K2 x c tb (proj1 X) I E). }
  rewrite (known_ok _ _ N). destruct (order_accepts aliased (j_query st) st Np O) as (k & ->). cbn [bind].
  destruct (needed_all (qjoins (j_query st)) need) as (rest & ->).
  { intros j I. destruct (Sel (jtab j) (in_map jtab _ _ I)) as (n & o & IO & c & Ic & Ec).
    unfold need, tables_of. apply in_flat_map. exists c. split.
    - apply in_or_app. left. apply in_flat_map. exists (n, o). split; [exact IO|exact Ic].
    - rewrite Ec. left. reflexivity. }
  cbn [fst]. match goal with |- context [run_joins cmpv d p ?js ?es] => destruct (RJ es) as (es' & ->) end. cbn [bind]. eauto.
Qed.

(** ** A joined table that nothing reads *)
Lemma needed_unread : forall js need j, ~ In (jtab j) need -> needed_joins need (js ++ [j]) = needed_joins need js.
Proof.
  induction js as [|i js IH]; intros need j N; cbn [app needed_joins].
  - destruct (memb (jtab j) need) eqn:E; [apply memb_In in E; contradiction|reflexivity].
  - rewrite (IH need j N). reflexivity.
Qed.
Lemma known_unread : forall js need j, ~ In (jtab j) need -> known_tables p (js ++ [j]) need = known_tables p js need.
Proof.
  intros js need j N. unfold known_tables. apply Joins_Proofs.forallb_ext_in. intros tb I. f_equal. rewrite map_app. unfold memb. rewrite existsb_app. cbn [map existsb].
  destruct (text_eqb tb (jtab j)) eqn:E; [apply text_eqb_spec in E; subst tb; contradiction|]. rewrite !orb_false_r. reflexivity.
Qed.
Lemma run_joins_app : forall a b es, run_joins cmpv d p (a ++ b) es = do x <- run_joins cmpv d p a es; run_joins cmpv d p b x.
Proof.
  induction a as [|j a IH]; intros b es; [reflexivity|]. cbn [app run_joins]. destruct (join_type_ok j); [|reflexivity].
  destruct (parse_on cmpv (jtab j) (Plan [] [] []) (jon j)); [|reflexivity]. apply IH.
Qed.
(** C237: the last LEFT JOIN, when neither the select list nor WHERE reads its table: the SELECT runs as if the join were not there. *)
Theorem unread_join : forall fuel aliased js j w items order limit offset,
  (forall i, In i (js ++ [j]) -> jside i = SLeft /\ jkind i = KNone) -> (forall a, In a (jon j) -> qualified a) -> single_keys j ->
  (forall n o c, In (n, o) items -> In c (ocols o) -> ctab c <> Some (jtab j)) ->
  (forall a c, In a w -> In c (acols a) -> ctab c <> Some (jtab j)) ->
  run_joinsel cmpv leK d fuel aliased (JSelect (Query [p] (js ++ [j]) w) items order limit offset) =
  run_joinsel cmpv leK d fuel aliased (JSelect (Query [p] js w) items order limit offset).
Proof.
  intros fuel aliased js j w items order limit offset Left Qu Sk N1 N2. unfold run_joinsel. cbn [j_query].
  assert (Ho : forall l, (forall i, In i l -> jside i = SLeft /\ jkind i = KNone) -> optimize fuel (Query [p] l w) = Some (Query [p] l w)).
  { intros l H. unfold optimize. rewrite (single_from (Query [p] l w) p eq_refl). cbn [qjoins]. rewrite no_right by (intros i Hi E; destruct (H i Hi); congruence).
    rewrite no_inner by (intros i Hi E; destruct (H i Hi); congruence). now destruct l. }
  rewrite (Ho (js ++ [j]) Left), (Ho js) by (intros i I; apply Left, in_or_app; left; exact I). f_equal.
  unfold run_compiled. cbn [qfrom qjoins qwhere j_items]. rewrite run_joins_app.
  destruct (run_joins cmpv d p js []) as [x|]; [|reflexivity]. cbn [bind].
  destruct (@run_joins_accepts cmpv d p [j] x) as (y & ->).
  { intros i [<-|[]]. unfold join_type_ok. destruct (Left j) as [-> ->]; [apply in_or_app; right; left; reflexivity|reflexivity]. }
  { intros i a [<-|[]] I. exact (Qu a I). }
  { intros i [<-|[]]. exact Sk. }
  cbn [bind]. cbv zeta. set (need := tables_of _).
  assert (Nn : ~ In (jtab j) need).
  { intros I. apply tables_in in I. destruct I as (c & I & E). apply in_app_or in I. destruct I as [I|I]; apply in_flat_map in I; destruct I as (z & Z & I).
    - destruct z as [n o]. exact (N1 n o c Z I E).
    - apply filter_In in Z. exact (N2 z c (proj1 Z) I E). }
  rewrite (known_unread js need j Nn), (needed_unread js need j Nn). reflexivity.
Qed.
End Accept.
Print Assumptions left_select_accepted.
Print Assumptions unread_join.

(** *** Examples and counterexamples *)
Definition run1 (d : db) (st : jselect) := run_joinsel icmp leq0 d 10 true st.
Definition item (n : text) (tab name : text) : text * operand := (n, cc tab name).
(** SELECT a.id AS i, b.x AS y FROM a LEFT JOIN b ON b.id = a.id *)
Definition ij := t "i". Definition yj := t "y".
Definition base (on : list atom) (w : list atom) order limit offset : jselect :=
  JSelect (Query [ta] [Join tb SLeft KNone on] w) [item ij ta id_; item yj tb x_] order limit offset.
Definition twos := db3 [r2 2 5; r2 1 6; r2 3 7] [r2 1 10; r2 2 20; r2 1 30] [].
Definition desc_id := [(Col (Some ta) id_, true)].
Definition st_desc := base [eq_ab] [ACmp CLt (cc ta x_) (kk 7)] desc_id None None.

Lemma one_ab : forall w, one_table ta (Query [ta] [Join tb SLeft KNone [eq_ab]] w).
Proof.
  intros w. split; [reflexivity|]. split.
  - cbn [qjoins scoped jtab jon]. split; [intros [H|[]]; discriminate|]. split; [|exact I].
    intros a c [<-|[]] Hc. cbn in Hc. destruct Hc as [<-|[<-|[]]]; eexists; (split; [reflexivity|]); cbn; auto.
  - intros j [<-|[]]; (split; [repeat constructor; intros []|]). intros a [<-|[]]; cbn; discriminate.
Qed.
Lemma base_selected : forall on w order limit offset, all_selected [tb] (base on w order limit offset).
Proof. intros on w order limit offset x [<-|[]]. exists yj, (cc tb x_). split; [right; left; reflexivity|]. exists (Col (Some tb) x_). split; [left; reflexivity|reflexivity]. Qed.
Lemma base_named : forall on w limit offset, well_named ta true (base on w desc_id limit offset).
Proof.
  intros. split; [discriminate|]. split; [intros c b [E|[]]; injection E as <- _; discriminate|].
  intros c b o [E|[]] I. injection E as <- _. cbn in I. destruct I as [E|[E|[]]]; discriminate E.
Qed.
(** WHERE a.x < 7 ORDER BY a.id DESC: both are done by the loader, before the join. *)
Example desc_applies : exists l, run1 twos st_desc = Some (Ok l) /\ answers icmp leq0 ta twos st_desc l.
Proof.
  destruct (left_select_accepted icmp leq0 twos ta 10 true st_desc) as (l & H).
  - discriminate.
  - apply one_ab.
  - intros j [<-|[]]. split; reflexivity.
  - apply base_selected.
  - split; [intros n o c tb0 [E|[E|[]]] I Ec; injection E as <- <-; destruct I as [<-|[]]; injection Ec as <-; [left|right; left]; reflexivity|].
    intros a c tb0 [<-|[]] I Ec. destruct I as [<-|[]]. injection Ec as <-. left. reflexivity.
  - left. intros c b [E|[]]. injection E as <- _. reflexivity.
  - exists l. split; [exact H|]. eapply (left_select icmp leq0 twos ta icmp_null icmp_sym leq0_total 10 true st_desc); try exact H.
    + apply one_ab.
    + intros j [<-|[]]. split; reflexivity.
    + apply base_selected.
    + intros a [<-|[]]. exact I.
    + apply base_named.
    + intros n E. discriminate.
    + left. reflexivity.
Qed.
Definition out2 (i y : val) : list (text * val) := [(ij, i); (yj, y)].
Example desc_runs : run1 twos st_desc = Some (Ok [out2 (VInt 2) (VInt 20); out2 (VInt 1) (VInt 10); out2 (VInt 1) (VInt 30)]).
Proof. reflexivity. Qed.
(** INNER JOIN ... LIMIT 2: after the join. *)
Definition st_inner := JSelect (Query [ta] [Join tb SNone KInner [eq_ab]] []) [item ij ta id_; item yj tb x_] desc_id (Some 2) None.
Example inner_runs : run1 twos st_inner = Some (Ok [out2 (VInt 2) (VInt 20); out2 (VInt 1) (VInt 10)]).
Proof. reflexivity. Qed.
Example inner_applies : forall l, run1 twos st_inner = Some (Ok l) -> answers icmp leq0 ta twos st_inner l.
Proof.
  intros l H. apply (inner_select icmp leq0 twos ta icmp_null icmp_sym leq0_total 10 true st_inner l).
  - split; [reflexivity|]. split; [exact (proj1 (proj2 (one_ab [])))|].
    intros j [<-|[]]; (split; [repeat constructor; intros []|]). intros a [<-|[]]; cbn; discriminate.
  - discriminate.
  - intros j a [<-|[]] [<-|[]]; cbn; auto.
  - intros j [<-|[]]. repeat split.
  - apply (base_selected [] [] [] None None).
  - intros a [].
  - exact (base_named [] [] (Some 2) None).
  - intros n E. injection E as <-. lia.
  - exact H.
Qed.
(** FROM a, b WHERE b.id = a.id ORDER BY b.x LIMIT 1 OFFSET 1, b.x being in the select list under the name x. *)
Definition st_comma := JSelect (Query [ta; tb] [] [eq_ab]) [item ij ta id_; item x_ tb x_] [(Col (Some tb) x_, false)] (Some 1) (Some 1).
Example comma_pages : run1 twos st_comma = Some (Ok [[(ij, VInt 2); (x_, VInt 20)]]).
Proof. reflexivity. Qed.
Example comma_applies : forall l, run1 twos st_comma = Some (Ok l) -> answers icmp leq0 ta twos st_comma l.
Proof.
  intros l H. apply (comma_select icmp leq0 twos ta icmp_null icmp_sym leq0_total 10 true st_comma [tb] l); try exact H; try reflexivity.
  - discriminate.
  - cbn [st_comma j_query qwhere tied]. split; [intros [E|[]]; discriminate|]. split; [|exact I].
    exists CEq, (cc tb id_), (cc ta id_), (Col (Some tb) id_), (cc ta id_). split; [now left|]. split; [reflexivity|].
    split; [left; split; reflexivity|]. exists ta. split; [reflexivity|now left].
  - intros a [<-|[]] c [<-|[<-|[]]]; discriminate.
  - intros o x y cs f [E|[]] [E1|E1]; injection E as <- <- <-; discriminate E1.
  - intros x [<-|[]]. exists x_, (cc tb x_). split; [right; left; reflexivity|]. exists (Col (Some tb) x_). split; [left; reflexivity|reflexivity].
  - intros a [<-|[]]. exact I.
  - split; [discriminate|]. split; [intros c b [E|[]]; injection E as <- _; discriminate|].
    intros c b o [E|[]] J. injection E as <- _. left. cbn [st_comma j_items In] in J. destruct J as [E|[E|[]]]; [discriminate E|]. assert (Eo : snd (item x_ tb x_) = o) by (rewrite E; reflexivity). subst o. reflexivity.
  - intros n E. injection E as <-. lia.
Qed.

Lemma answers_length : forall d st l, answers icmp leq0 ta d st l ->
  length l = length (paged (j_limit st) (j_offset st) (map (result_row ta (j_items st)) (sql_query icmp ta d (j_query st)))).
Proof.
  intros d st l (es & (P & _) & ->). apply Permutation.Permutation_length in P. unfold paged.
  destruct (j_offset st) as [o|], (j_limit st) as [n|]; rewrite ?firstn_length, ?skipn_length, ?map_length, P; reflexivity.
Qed.
(** C235: LEFT JOIN with two matches, LIMIT 1: the loader is limited to one row, the join gives two. *)
Theorem left_limit_refuted : exists d st l, run1 d st = Some (Ok l) /\ length l = 2%nat /\ j_limit st = Some 1 /\
  ~ answers icmp leq0 ta d st l.
Proof.
  exists (db3 [r2 1 6] [r2 1 10; r2 1 30] []), (base [eq_ab] [] [] (Some 1) None), [out2 (VInt 1) (VInt 10); out2 (VInt 1) (VInt 30)].
  split; [reflexivity|]. split; [reflexivity|]. split; [reflexivity|]. intros A. apply answers_length in A. discriminate.
Qed.
(** C236: ORDER BY b.x with a.x in the select list under the name x: sorted by a.x. *)
Theorem order_joined_name_refuted : exists d st l, run1 d st = Some (Ok l) /\ j_order st = [(Col (Some tb) x_, false)] /\ ~ answers icmp leq0 ta d st l.
Proof.
  exists (db3 [r2 1 5; r2 2 6] [r2 1 20; r2 2 10] []),
    (JSelect (Query [ta] [Join tb SLeft KNone [eq_ab]] []) [item x_ ta x_; item yj tb x_] [(Col (Some tb) x_, false)] None None),
    [[(x_, VInt 5); (yj, VInt 20)]; [(x_, VInt 6); (yj, VInt 10)]].
  split; [reflexivity|]. split; [reflexivity|]. intros (es & (P & S & _) & E). cbn [paged j_limit j_offset j_items] in E.
  destruct es as [|e1 [|e2 [|e3 es]]]; try discriminate E.
  apply Sorting.Sorted.StronglySorted_inv in S. destruct S as [_ F]. inversion F as [|? ? Le _]; subst. clear F.
  assert (V : oval ta e1 (cc tb x_) = VInt 20 /\ oval ta e2 (cc tb x_) = VInt 10) by (cbn [map result_row fst snd item] in E; split; congruence).
  destruct V as [V1 V2]. unfold order_of in Le. cbn [map j_order lex_le fst snd] in Le. unfold order_value in Le. cbn [ctab] in Le.
  cbn [oval cc] in V1, V2. rewrite V1, V2 in Le. discriminate.
Qed.
(** C237: SELECT a.id FROM a LEFT JOIN b ON b.id = a.id, two matches: one row comes back. *)
Theorem unread_join_refuted : exists d st l, run1 d st = Some (Ok l) /\ length l = 1%nat /\ length (sql_query icmp ta d (j_query st)) = 2%nat /\
  ~ answers icmp leq0 ta d st l.
Proof.
  exists (db3 [r2 1 6] [r2 1 10; r2 1 30] []), (JSelect (Query [ta] [Join tb SLeft KNone [eq_ab]] []) [item ij ta id_] [] None None), [[(ij, VInt 1)]].
  split; [reflexivity|]. split; [reflexivity|]. split; [reflexivity|]. intros A. apply answers_length in A. discriminate.
Qed.
(** ... and LIMIT over a LEFT JOIN is right when each row has one match. *)
Example left_limit_applies : exists l, run1 three (base [eq_ab] [] desc_id (Some 2) None) = Some (Ok l) /\ answers icmp leq0 ta three (base [eq_ab] [] desc_id (Some 2) None) l.
Proof.
  eexists. split; [reflexivity|]. eapply (left_select icmp leq0 three ta icmp_null icmp_sym leq0_total 10 true (base [eq_ab] [] desc_id (Some 2) None)).
  - apply one_ab.
  - intros j [<-|[]]. split; reflexivity.
  - apply base_selected.
  - intros a [].
  - apply base_named.
  - intros n E. injection E as <-. lia.
  - right. right. right. intros j e [<-|[]]. unfold matches, alltrue. cbn [jtab jon]. change (three tb) with [r2 1 10; r2 2 20]. cbn [map filter forallb].
    unfold atrue, eq_ab. cbn [oval cc]. unfold cval. cbn [ctab assoc]. change (text_eqb tb tb) with true. change (text_eqb ta tb) with false. cbv iota.
    destruct (match assoc ta e with Some (Some r) => rget r (cname (Col (Some ta) id_)) | _ => VNone end) as [| |z| | | | |]; cbn; try lia.
    destruct z as [|[q|q|]|q]; cbn; try lia; destruct q; cbn; lia.
  - reflexivity.
Qed.

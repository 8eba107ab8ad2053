(** C248: LEFT JOINs that nothing reads, when each combination meets at most one row of them. *)
From Coq Require Import Permutation Sorting.Sorted.
From Verif Require Import Base PyVal Group_Proofs Select_Model Select_Spec Select_Proofs Select_Props Joins_Syntax Joins_Spec Joins_Model Joins_Proofs Joins_Accept Joins_Props
  Joinsel_Syntax Joinsel_Spec Joinsel_Model Joinsel_Proofs Joinsel_Props Joinsel_Cases.
Open Scope Z_scope.

(** Neither the select list, nor WHERE, nor ORDER BY reads [tb]. *)
Definition unread_table (tb : text) (st : jselect) : Prop :=
  (forall n o c, In (n, o) (j_items st) -> In c (ocols o) -> ctab c <> Some tb) /\
  (forall a c, In a (qwhere (j_query st)) -> In c (acols a) -> ctab c <> Some tb) /\
  (forall c desc, In (c, desc) (j_order st) -> ctab c <> Some tb).

Section Unread.
Variable cmpv : cmp -> val -> val -> bool.
Variable leK : val -> val -> bool.
Variable d : db.
Variable p : text.

Lemma sorted_as_map : forall (A : Type) (le : A -> A -> bool) (f : A -> A) l l', (forall x y, le (f x) y = le x y) -> (forall x y, le x (f y) = le x y) ->
  sorted_as le l l' -> sorted_as le (map f l) (map f l').
Proof.
  intros A le f l l' H1 H2 (P & S & F). split; [apply Permutation_map; exact P|]. split.
  - clear P F. induction S as [|a l' S IH G]; [apply SSorted_nil|]. cbn [map]. apply SSorted_cons; [exact IH|]. rewrite Forall_forall in *. intros y I.
    apply in_map_iff in I. destruct I as (z & <- & I). rewrite H1, H2. exact (G z I).
  - intros x. assert (M : forall m, filter (fun y => le x y && le y x) (map f m) = map f (filter (fun y => le x y && le y x) m)).
    { induction m as [|y m IH]; [reflexivity|]. cbn [map filter]. rewrite H1, H2. destruct (le x y && le y x); cbn [map]; rewrite IH; reflexivity. }
    rewrite !M, F. reflexivity.
Qed.

Section One.
Variable tb : text.
Variable on : list atom.
Hypothesis Np : tb <> p.
Hypothesis Single : forall e, (length (matches cmpv p d tb on e) <= 1)%nat.

(** The combination with its only match, or with none. *)
Definition extend (e : env) : env := match matches cmpv p d tb on e with [] => (tb, None) :: e | m :: _ => m end.
Lemma extend_shape : forall e, exists o, extend e = (tb, o) :: e.
Proof.
  intros e. unfold extend. destruct (matches cmpv p d tb on e) as [|m ms] eqn:E; [eexists; reflexivity|].
  assert (I : In m (matches cmpv p d tb on e)) by (rewrite E; left; reflexivity). unfold matches in I. apply filter_In in I. destruct I as [I _]. apply in_map_iff in I. destruct I as (r & <- & _). eexists. reflexivity.
Qed.
Lemma extend_join : forall es, left_join cmpv p d tb on es = map extend es.
Proof.
  induction es as [|e es IH]; [reflexivity|]. unfold left_join in *. cbn [flat_map map]. rewrite IH. unfold extend at 2. pose proof (Single e) as S.
  destruct (matches cmpv p d tb on e) as [|m [|m2 ms]]; cbn [length] in S; [reflexivity|reflexivity|lia].
Qed.
Lemma extend_cval : forall e c, ctab c <> Some tb -> cval p (extend e) c = cval p e c.
Proof.
  intros e c N. destruct (extend_shape e) as (o & ->). unfold cval. cbn [assoc].
  assert (E : text_eqb (match ctab c with Some x => x | None => p end) tb = false) by (apply text_eqb_neq; destruct (ctab c); congruence).
  destruct (text_eqb tb (match ctab c with Some x => x | None => p end)) eqn:E'; [apply text_eqb_spec in E'; rewrite <- E' in E; rewrite text_eqb_refl in E; discriminate|].
  try rewrite E; reflexivity.
Qed.
Lemma extend_oval : forall e o, (forall c, In c (ocols o) -> ctab c <> Some tb) -> oval p (extend e) o = oval p e o.
Proof.
  intros e [c|cs f] H; cbn [oval ocols] in *; [apply extend_cval, H; left; reflexivity|]. f_equal. apply map_ext_in. intros c I. apply extend_cval, H, I.
Qed.
Lemma extend_true : forall e a, (forall c, In c (acols a) -> ctab c <> Some tb) -> atrue cmpv p (extend e) a = atrue cmpv p e a.
Proof.
  intros e [o l r|l f|cs f] H; cbn [atrue acols] in *.
  - rewrite !extend_oval; [reflexivity| |]; intros c I; apply H, in_or_app; auto.
  - rewrite extend_oval; [reflexivity|exact H].
  - f_equal. apply map_ext_in. intros c I. apply extend_cval, H, I.
Qed.
Lemma extend_where : forall w es, (forall a c, In a w -> In c (acols a) -> ctab c <> Some tb) -> filter (alltrue cmpv p w) (map extend es) = map extend (filter (alltrue cmpv p w) es).
Proof.
  intros w es H. assert (A : forall e, alltrue cmpv p w (extend e) = alltrue cmpv p w e).
  { intros e. unfold alltrue. clear es. induction w as [|a w' IH]; [reflexivity|]. cbn [forallb]. rewrite IH by (intros b c Ib; apply H; right; exact Ib).
    rewrite extend_true by (intros c; apply H; left; reflexivity). reflexivity. }
  induction es as [|e es IH]; [reflexivity|]. cbn [map filter]. rewrite A, IH. destruct (alltrue cmpv p w e); reflexivity.
Qed.
End One.

(** SQL: such a LEFT JOIN changes nothing. *)
Lemma unread_last : forall js j w items order limit offset l, jtab j <> p -> jside j = SLeft -> (forall e, (length (matches cmpv p d (jtab j) (jon j) e) <= 1)%nat) ->
  unread_table (jtab j) (JSelect (Query [p] js w) items order limit offset) ->
  answers cmpv leK p d (JSelect (Query [p] js w) items order limit offset) l -> answers cmpv leK p d (JSelect (Query [p] (js ++ [j]) w) items order limit offset) l.
Proof.
  intros js j w items order limit offset l Np Sd Single (U1 & U2 & U3) (es & So & El). cbn [j_items j_query j_order j_limit j_offset qwhere] in *.
  pose proof (fun e c => extend_cval (jtab j) (jon j) Np e c) as XC. pose proof (fun e o => extend_oval (jtab j) (jon j) Np e o) as XO.
  set (f := extend (jtab j) (jon j)) in *. exists (map f es). split.
  - assert (E : sql_query cmpv p d (Query [p] (js ++ [j]) w) = map f (sql_query cmpv p d (Query [p] js w))).
    { unfold sql_query. cbn [qfrom qjoins qwhere]. rewrite fold_left_app. cbn [fold_left]. destruct (fold_left (sql_join cmpv p d) js (sql_from cmpv p d [p])) as [ts es0]. cbn [sql_join snd]. rewrite Sd.
      rewrite (extend_join _ _ Single). apply extend_where; assumption. }
    cbn [j_query] in *. rewrite E.
    assert (V : forall k e, In k order -> order_value p items (fst k) (f e) = order_value p items (fst k) e).
    { intros [c b] e I. unfold order_value. cbn [fst]. destruct (ctab c) as [x|] eqn:Ec; [apply XC; rewrite Ec; intros X; exact (U3 c b I (eq_trans Ec X))|].
      destruct (assoc (cname c) items) as [o|] eqn:Eo; [|apply XC; rewrite Ec; discriminate]. apply XO. intros c' I'. apply Group_Proofs.assoc_pair in Eo. exact (U1 _ _ c' Eo I'). }
    assert (L : forall ks x y, (forall k, In k ks -> In k order) ->
      lex_le leK (map (fun k => (order_value p items (fst k), snd k)) ks) (f x) y = lex_le leK (map (fun k => (order_value p items (fst k), snd k)) ks) x y /\
      lex_le leK (map (fun k => (order_value p items (fst k), snd k)) ks) x (f y) = lex_le leK (map (fun k => (order_value p items (fst k), snd k)) ks) x y).
    { induction ks as [|k ks IH]; intros x y H; [split; reflexivity|]. cbn [map lex_le]. destruct (IH x y (fun k' I => H k' (or_intror I))) as (I1 & I2).
      rewrite !(V k _ (H k (or_introl eq_refl))), I1, I2. split; reflexivity. }
    apply sorted_as_map; [| |exact So].
    + intros x y. exact (proj1 (L order x y (fun k I => I))).
    + intros x y. exact (proj2 (L order x y (fun k I => I))).
  - cbn [j_limit j_offset j_items] in *. rewrite map_map. rewrite El. f_equal. apply map_ext. intros e. unfold result_row. apply map_ext_in. intros [n o] I. cbn [fst snd]. f_equal.
    symmetry. apply XO. intros c Ic. exact (U1 n o c I Ic).
Qed.

Hypothesis NR : null_rejecting cmpv.
Hypothesis SY : eq_symmetric cmpv.
Hypothesis TK : total_preorder leK.

Lemma scoped_app : forall js ts js2, scoped ts (js ++ js2) -> scoped ts js.
Proof. induction js as [|j js IH]; intros ts js2 H; [exact Logic.I|]. cbn [app scoped] in *. destruct H as (H1 & H2 & H3). split; [exact H1|]. split; [exact H2|exact (IH _ _ H3)]. Qed.
Lemma one_table_app : forall js js2 w, one_table p (Query [p] (js ++ js2) w) -> one_table p (Query [p] js w).
Proof.
  intros js js2 w (H1 & H2 & H3). cbn [qfrom qjoins] in *. split; [reflexivity|]. split; [exact (scoped_app _ _ _ H2)|]. intros j I. apply H3. cbn [qjoins]. apply in_or_app. left. exact I.
Qed.
Section Statement.
Variables (fuel : nat) (aliased : bool) (w : list atom) (items : list (text * operand)) (order : list (col * bool)) (limit offset : option Z).
Notation st js := (JSelect (Query [p] js w) items order limit offset).

(** The engine: such joins are not compiled. *)
Lemma unread_dropped : forall js2 js, one_table p (Query [p] (js ++ js2) w) -> (forall j, In j (js ++ js2) -> jside j = SLeft /\ jkind j = KNone) ->
  (forall j, In j js2 -> unread_table (jtab j) (st (js ++ js2))) ->
  run_joinsel cmpv leK d fuel aliased (st (js ++ js2)) = run_joinsel cmpv leK d fuel aliased (st js).
Proof.
  intros js2. induction js2 as [|j js2 IH] using rev_ind; intros js One Left U; [rewrite app_nil_r; reflexivity|]. rewrite app_assoc in One, Left |- *.
  pose proof One as (_ & Sc & Pl). cbn [qjoins] in Sc, Pl. assert (Ij : In j ((js ++ js2) ++ [j])) by (apply in_or_app; right; left; reflexivity).
  destruct (U j) as (U1 & U2 & _); [apply in_or_app; right; left; reflexivity|]. cbn [j_items j_query qwhere] in U1, U2.
  rewrite (unread_join cmpv leK d p fuel aliased (js ++ js2) j w items order limit offset Left); [|intros a Ia; exact (scoped_qualified _ _ Sc j a Ij Ia)|exact (proj1 (Pl j Ij))|exact U1|exact U2].
  apply IH; [exact (one_table_app _ _ _ One)|intros i I; apply Left; apply in_or_app; left; exact I|]. intros i I. exact (U i (in_or_app _ _ _ (or_introl I))).
Qed.
Lemma unread_added : forall js2 js l, one_table p (Query [p] (js ++ js2) w) -> (forall j, In j (js ++ js2) -> jside j = SLeft /\ jkind j = KNone) ->
  (forall j, In j js2 -> unread_table (jtab j) (st (js ++ js2))) -> single_match cmpv p d js2 ->
  answers cmpv leK p d (st js) l -> answers cmpv leK p d (st (js ++ js2)) l.
Proof.
  intros js2. induction js2 as [|j js2 IH] using rev_ind; intros js l One Left U Sm A; [rewrite app_nil_r; exact A|]. rewrite app_assoc in One, Left |- *.
  pose proof One as (_ & Sc & _). cbn [qjoins] in Sc. assert (Ij : In j ((js ++ js2) ++ [j])) by (apply in_or_app; right; left; reflexivity). assert (Ij2 : In j (js2 ++ [j])) by (apply in_or_app; right; left; reflexivity).
  apply unread_last.
  - exact (scoped_neq _ [p] p (or_introl eq_refl) Sc j Ij).
  - exact (proj1 (Left j Ij)).
  - intros e. exact (Sm j e Ij2).
  - exact (U j Ij2).
  - apply IH; [exact (one_table_app _ _ _ One)|intros i I; apply Left; apply in_or_app; left; exact I|intros i I; exact (U i (in_or_app _ _ _ (or_introl I)))|intros i e I; exact (Sm i e (in_or_app _ _ _ (or_introl I)))|exact A].
Qed.

(** C248: LEFT JOINs, of which the last ones are read by nothing and meet at most one row: the SELECT is accepted and returns what SQL says. *)
Theorem unread_left_select : forall js js2, p <> [] -> one_table p (Query [p] (js ++ js2) w) -> (forall j, In j (js ++ js2) -> jside j = SLeft /\ jkind j = KNone) ->
  (forall j, In j js2 -> unread_table (jtab j) (st (js ++ js2))) -> single_match cmpv p d js2 ->
  all_selected (map jtab js) (st js) -> reads_known (st js) (p :: map jtab js) -> orderable p (st js) -> (forall a, In a w -> upright a) -> well_named p aliased (st js) -> positive_limit (st js) ->
  (limit = None \/ (exists a, In a w /\ on_first p a = false) \/ (exists c desc tb, In (c, desc) order /\ ctab c = Some tb /\ tb <> p) \/ single_match cmpv p d js) ->
  exists l, run_joinsel cmpv leK d fuel aliased (st (js ++ js2)) = Some (Ok l) /\ answers cmpv leK p d (st (js ++ js2)) l.
Proof.
  intros js js2 Np One Left U Sm Sel RK Or Up WN PL Lim. pose proof (one_table_app _ _ _ One) as One'.
  assert (Left' : forall j, In j js -> jside j = SLeft /\ jkind j = KNone) by (intros j I; apply Left; apply in_or_app; left; exact I).
  destruct (left_select_accepted cmpv leK d p fuel aliased (st js) Np One' Left' Sel RK Or) as (l & R). exists l. split; [rewrite (unread_dropped js2 js One Left U); exact R|].
  apply (unread_added js2 js l One Left U Sm). exact (left_select cmpv leK d p NR SY TK fuel aliased (st js) l One' Left' Sel Up WN PL Lim R).
Qed.
End Statement.
End Unread.
Print Assumptions unread_left_select.

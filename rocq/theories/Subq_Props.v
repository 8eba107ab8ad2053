(** C63: a subquery in an expression gives for each row of the outer query what SQL says.  C64: a subquery that cannot be compiled is rejected, not changed. *)
From Verif Require Import Base Reduce_Spec Joins_Proofs Subq_Syntax Subq_Spec Subq_Model Subq_Proofs.
Open Scope nat_scope.

Section P.
Variable V : Type.
Variable L : lang V.
Variable same : V -> V -> bool.

(** Every column of WHERE belongs to a table of the subquery or of the outer query, which have different names; the selected and grouped expressions
    use only the subquery's tables. *)
Record well_formed (q : query V) (parents : list text) : Prop := {
  wf_names : forall tb, In tb (q_tables V q) -> ~ In tb parents;
  wf_where : forall w c tb, q_where V q = Some w -> In c (columns V w) -> c_table c = Some tb -> In tb (q_tables V q) \/ In tb parents;
  wf_items : forall e c, In e (match q_kind V q with Plain _ item => [item] | Aggregate _ _ group => group end) -> In c (columns V e) -> own (q_tables V q) c }.
(** AND is true when both sides are. *)
Definition and_logic : Prop := forall x y, l_true V L (l_and V L x y) = l_true V L x && l_true V L y.
(** On the values compared by = between two columns, = and the package's equality agree. *)
Definition equality_agrees (q : query V) (source : list (row V)) (o : row V) : Prop :=
  forall r a b, In r source -> In (Eq V (Col V a) (Col V b)) (where_conjuncts V q) ->
    let x := sql_look V L (q_tables V q) r o a in let y := sql_look V L (q_tables V q) r o b in
    l_true V L (l_eq V L x y) = same x y /\ same x y = same y x.

Section One.
Variables (q : query V) (parents : list text) (source outers : list (row V)) (o : row V).
Hypothesis AL : and_logic.
Hypothesis WF : well_formed q parents.
Hypothesis EA : equality_agrees q source o.
Hypothesis NR : no_repetition V (q_tables V q) (where_conjuncts V q).
Hypothesis IO : In o outers.

Lemma parsed_where : exists s, parse V (q_tables V q) parents (q_where V q) = Ok s
  /\ complete V (q_tables V q) s /\ inner_selects V s
  /\ (forall e c, In e (p_interceptors V s) -> In c (columns V e) -> scoped (q_tables V q) parents c)
  /\ (forall r, In r source -> holds V L same (q_tables V q) s r o = match q_where V q with None => true | Some w => l_true V L (ev V L (sql_look V L (q_tables V q) r o) w) end)
  /\ (only_equalities V (q_tables V q) (where_conjuncts V q) -> p_interceptors V s = []).
Proof.
  destruct WF as [WN WW WI]. unfold equality_agrees in EA. unfold where_conjuncts in *. unfold parse. destruct (q_where V q) as [w|].
  - assert (Sc : forall c, In c (columns V w) -> scoped (q_tables V q) parents c) by (intros c I tb E; exact (WW w c tb eq_refl I E)).
    assert (At : Forall (atom V) (conjuncts V w)) by (apply Forall_forall; apply conjuncts_atoms).
    assert (Sc2 : forall e c, In e (conjuncts V w) -> In c (columns V e) -> scoped (q_tables V q) parents c)
      by (intros e c I J; apply Sc; exact (conjuncts_columns V w e c I J)).
    destruct (parse_accepts V (q_tables V q) parents WN (conjuncts V w) (nothing V) At Sc2 NR) as [s H].
    { intros e c p _ _ []. }
    rewrite parse_conjuncts. exists s. split; [exact H|]. rewrite <- parse_conjuncts in H.
    destruct (parse_complete V same (q_tables V q) parents w (nothing V) s) as [C I]; [intros e c []|intros _; reflexivity|exact H|].
    split; [exact C|]. split; [exact I|]. split; [|split].
    + apply (parse_interceptors V (q_tables V q) parents w (nothing V) s Sc); [intros e c []|exact H].
    + intros r Ir. rewrite (parse_holds V L same (q_tables V q) parents WN AL w (nothing V) s r o Sc); [reflexivity| |exact H].
      intros a b J. exact (EA r a b Ir J).
    + intros OE. rewrite parse_conjuncts in H. exact (parse_no_interceptors V (q_tables V q) parents WN _ (nothing V) s At Sc2 OE eq_refl H).
  - exists (nothing V). split; [reflexivity|]. split; [intros e c []|]. split; [intros _; reflexivity|].
    split; [intros e c []|]. split; [intros r _; reflexivity|reflexivity].
Qed.

Definition row_out (s : parsed V) (v : row V -> V) (r : row V) : out V :=
  {| o_value := v r; o_keys := map (fun k => column_of V L r (fst k)) (p_keys V s); o_selects := map (column_of V L r) (p_selects V s) |}.
Lemma matched_rows : forall s v, complete V (q_tables V q) s ->
  (forall e c, In e (p_interceptors V s) -> In c (columns V e) -> scoped (q_tables V q) parents c) ->
  forall r, kept_holds V L (q_tables V q) s r && in_batch V L same s outers r && matches V L same q s o (row_out s v r) = holds V L same (q_tables V q) s r o.
Proof.
  intros s v C S r. unfold matches, row_out. cbn [o_keys].
  rewrite (inter_value V L (q_tables V q) parents s (v r) _ r o C S). rewrite same_list_keys.
  unfold holds. change (forallb (fun k => same (column_of V L r (fst k)) (column_of V L o (snd k))) (p_keys V s)) with (keys_hold V L same s r o).
  destruct (keys_hold V L same s r o) eqn:K; [|rewrite !andb_false_r; reflexivity].
  rewrite (keys_in_batch V L same s r o outers IO K), !andb_true_r. reflexivity.
Qed.
Lemma own_value : forall e r, (forall c, In c (columns V e) -> own (q_tables V q) c) ->
  ev V L (inner_look V L (q_tables V q) r) e = ev V L (sql_look V L (q_tables V q) r o) e.
Proof.
  intros e r H. apply ev_ext. intros c I. apply H in I. apply inner_own in I. unfold inner_look. rewrite I. symmetry. apply sql_inner. exact I.
Qed.
Lemma sql_rows_filter : forall s, (forall r, In r source -> holds V L same (q_tables V q) s r o = match q_where V q with None => true | Some w => l_true V L (ev V L (sql_look V L (q_tables V q) r o) w) end) ->
  filter (fun r => holds V L same (q_tables V q) s r o) source = sql_rows V L q source o.
Proof.
  intros s H. unfold sql_rows. destruct (q_where V q) as [w|].
  - apply filter_ext_in. intros r I. exact (H r I).
  - rewrite (filter_ext_in _ (fun _ => true)); [|intros r I; exact (H r I)]. clear. induction source as [|x l IH]; [reflexivity|]. cbn [filter]. f_equal. exact IH.
Qed.

Lemma plain_values : forall item, q_kind V q = Plain V item -> q_limit V q = None ->
  subquery_values V L same q parents source outers o = Ok (sql_values V L same q source o).
Proof.
  intros item QK QL. destruct parsed_where as (s & Ps & C & _ & S & H & _). unfold subquery_values. rewrite Ps. f_equal.
  unfold run_rewritten, sql_values. rewrite QK, QL. cbn [limit limited]. cbv zeta.
  change (fun r : row V => {| o_value := ev V L (inner_look V L (q_tables V q) r) item; o_keys := _; o_selects := _ |})
    with (row_out s (fun r => ev V L (inner_look V L (q_tables V q) r) item)).
  rewrite filter_map, map_map, filter_filter. cbn [row_out o_value].
  rewrite <- (sql_rows_filter s H). rewrite (filter_ext_in _ (fun r => holds V L same (q_tables V q) s r o)).
  - apply map_ext. intros r. apply own_value. intros c I. apply (wf_items _ _ WF item c); [rewrite QK; left; reflexivity|exact I].
  - intros r _. exact (matched_rows s _ C S r).
Qed.

Lemma same_list_eq : forall a b, Subq_Model.same_list V same a b = Subq_Spec.same_list V same a b.
Proof. induction a as [|x a IH]; intros [|y b]; try reflexivity. cbn. rewrite IH. reflexivity. Qed.
Lemma same_list_equiv : equivalence_b same -> equivalence_b (Subq_Model.same_list V same).
Proof.
  intros (r & s & t). split; [|split].
  - induction a as [|x a IH]; [reflexivity|]. cbn. rewrite r. exact IH.
  - induction a as [|x a IH]; intros [|y b]; try reflexivity. cbn. rewrite s, IH. reflexivity.
  - induction a as [|x a IH]; intros [|y b] [|z c]; try discriminate; try reflexivity. cbn. intros H1 H2. apply andb_true_iff in H1 as [H1 H1'], H2 as [H2 H2'].
    rewrite (t x y z H1 H2), (IH b c H1' H2'). reflexivity.
Qed.

Lemma keys_ext : forall (K R : Type) (f g : K -> K -> bool) (rows : list (K * R)), (forall a b, f a b = g a b) -> keys f rows = keys g rows.
Proof.
  intros K R f g rows E. unfold keys. generalize (@nil K) as seen. induction rows as [|[k r] rows IH]; intros seen; [reflexivity|]. cbn [keys_from].
  assert (existsb (fun k' => f k' k) seen = existsb (fun k' => g k' k) seen) as ->.
  { clear -E. induction seen as [|x l IH]; [reflexivity|]. cbn [existsb]. rewrite E, IH. reflexivity. }
  destruct (existsb _ seen); [apply IH|]. f_equal. apply IH.
Qed.
Lemma members_ext : forall (K R : Type) (f g : K -> K -> bool) (rows : list (K * R)) k, (forall a b, f a b = g a b) -> members f rows k = members g rows k.
Proof. intros K R f g rows k E. unfold members. f_equal. apply filter_ext. intros x. apply E. Qed.

(** GROUP BY nothing: one group, unless there is no row. *)
Lemma keys_nil : forall l : list (row V), keys (Subq_Spec.same_list V same) (map (fun r => ([] : list V, r)) l) = match l with [] => [] | _ => [[]] end.
Proof.
  intros [|x l]; [reflexivity|]. unfold keys. cbn [map keys_from existsb app]. f_equal. induction l as [|y l IH]; [reflexivity|]. exact IH.
Qed.
Lemma members_nil : forall l : list (row V), members (Subq_Spec.same_list V same) (map (fun r => ([] : list V, r)) l) [] = l.
Proof.
  intros l. unfold members. induction l as [|x l IH]; [reflexivity|]. cbn [map filter fst Subq_Spec.same_list snd]. f_equal. exact IH.
Qed.

Lemma aggregate_values : forall f group, q_kind V q = Aggregate V f group -> q_limit V q = None -> equivalence_b same ->
  only_equalities V (q_tables V q) (where_conjuncts V q) ->
  subquery_values V L same q parents source outers o
  = Ok (match group, sql_rows V L q source o with [], [] => [] | _, _ => sql_values V L same q source o end).
Proof.
  intros f group QK QL EQ OE. destruct parsed_where as (s & Ps & C & IS & S & H & NI). specialize (NI OE). specialize (IS NI).
  unfold subquery_values. rewrite Ps. f_equal. unfold run_rewritten, sql_values. rewrite QK, QL. cbn [limit limited]. cbv zeta. rewrite IS.
  rewrite filter_map, map_map. cbn [o_value].
  set (ks := fun r => map (fun k => column_of V L r (fst k)) (p_keys V s)).
  set (gf := fun r => map (ev V L (inner_look V L (q_tables V q) r)) group).
  set (k0 := map (fun k => column_of V L o (snd k)) (p_keys V s)).
  set (rows := filter _ source).
  set (sl := Subq_Model.same_list V same). pose proof (same_list_equiv EQ) as ESL. fold sl in ESL.
  set (keyed := map _ rows).
  assert (M : forall k, matches V L same q s o {| o_value := f (members (same_key V same) keyed k); o_keys := fst (fst k); o_selects := snd (fst k) |} = sl (fst (fst k)) k0).
  { intros k. unfold matches. rewrite NI. cbn [forallb o_keys]. rewrite andb_true_r. reflexivity. }
  rewrite (filter_ext _ _ M). clear M.
  (* the key with its empty middle part, as a pair *)
  set (keyed2 := map (fun r => ((ks r, gf r), r)) rows).
  set (sk := both (list V) (list V) sl sl).
  assert (KK : forall (l : list (row V)) seen, keys_from (same_key V same) (map (fun kg : list V * list V => (fst kg, [], snd kg)) seen) (map (fun r => ((ks r, [], gf r), r)) l)
      = map (fun kg : list V * list V => (fst kg, [], snd kg)) (keys_from sk seen (map (fun r => ((ks r, gf r), r)) l))).
  { induction l as [|r l IH]; intros seen; [reflexivity|]. cbn [map keys_from].
    assert (X : existsb (fun k' => same_key V same k' (ks r, [], gf r)) (map (fun kg : list V * list V => (fst kg, [], snd kg)) seen) = existsb (fun k' => sk k' (ks r, gf r)) seen).
    { clear. induction seen as [|k l IH]; [reflexivity|]. cbn [map existsb]. rewrite IH. unfold same_key, sk, both. cbn [fst snd Subq_Model.same_list]. rewrite andb_true_r. reflexivity. }
    rewrite X. destruct (existsb (fun k' => sk k' (ks r, gf r)) seen); [apply IH|]. cbn [map fst snd]. f_equal.
    change [(ks r, [], gf r)] with (map (fun kg : list V * list V => (fst kg, @nil V, snd kg)) [(ks r, gf r)]). rewrite <- map_app. apply IH. }
  assert (KE : keys (same_key V same) keyed = map (fun kg : list V * list V => (fst kg, [], snd kg)) (keys sk keyed2)) by exact (KK rows []).
  assert (ME : forall kg : list V * list V, members (same_key V same) keyed (fst kg, [], snd kg) = members sk keyed2 kg).
  { intros kg. unfold members. change keyed with (map (fun r : row V => ((ks r, @nil V, gf r), r)) rows). unfold keyed2. clear. induction rows as [|r l IH]; [reflexivity|]. cbn [map filter fst snd].
    assert (same_key V same (fst kg, [], snd kg) (ks r, [], gf r) = sk kg (ks r, gf r)) as ->
      by (unfold same_key, sk, both; cbn [fst snd Subq_Model.same_list]; rewrite andb_true_r; reflexivity).
    destruct (sk kg (ks r, gf r)); cbn [map snd]; [f_equal|]; exact IH. }
  rewrite KE. rewrite filter_map, map_map. cbn [fst snd].
  rewrite (map_ext_in _ (fun kg => f (members sl (map (fun x : list V * list V * row V => (snd (fst x), snd x)) (filter (fun x => sl (fst (fst x)) k0) keyed2)) (snd kg)))).
  2:{ intros [k g] I. apply filter_In in I as [_ I]. cbn [fst snd] in *. pose proof (ME (k, g)) as Q. cbn [fst snd] in Q. rewrite Q. f_equal. apply members_of_class; assumption. }
  rewrite <- (map_map snd (fun g => f (members sl (map (fun x : list V * list V * row V => (snd (fst x), snd x)) (filter (fun x => sl (fst (fst x)) k0) keyed2)) g))).
  unfold keys at 1. change (keys_from sk [] keyed2) with (keys_from (both (list V) (list V) sl sl) [] keyed2).
  rewrite (keys_of_class (list V) (list V) (row V) sl sl ESL k0 keyed2 []). cbn [filter map].
  assert (RE : map (fun x : list V * list V * row V => (snd (fst x), snd x)) (filter (fun x => sl (fst (fst x)) k0) keyed2)
     = map (fun r => (map (ev V L (sql_look V L (q_tables V q) r o)) group, r)) (sql_rows V L q source o)).
  { unfold keyed2. rewrite filter_map, map_map. cbn [fst snd]. unfold rows. rewrite filter_filter. rewrite <- (sql_rows_filter s H).
    rewrite (filter_ext_in _ (fun r => holds V L same (q_tables V q) s r o)).
    - apply map_ext. intros r. f_equal. unfold gf. apply map_ext_in. intros e I. apply own_value. intros c J.
      apply (wf_items _ _ WF e c); [rewrite QK; exact I|exact J].
    - intros r _. rewrite <- (matched_rows s (fun _ => l_null V L) C S r). unfold matches. rewrite NI. cbn [forallb]. rewrite andb_true_r. reflexivity. }
  rewrite RE. change (keys_from sl [] ?x) with (keys sl x).
  rewrite (keys_ext _ _ sl (Subq_Spec.same_list V same) _ same_list_eq).
  rewrite (map_ext _ (fun g => f (members (Subq_Spec.same_list V same) (map (fun r => (map (ev V L (sql_look V L (q_tables V q) r o)) group, r)) (sql_rows V L q source o)) g)))
    by (intros g; f_equal; apply members_ext; exact same_list_eq).
  destruct group as [|g0 group]; [|reflexivity]. cbn [map]. rewrite keys_nil.
  destruct (sql_rows V L q source o) as [|r l] eqn:SR; [reflexivity|]. rewrite <- SR. cbn [map]. rewrite members_nil. reflexivity.
Qed.
End One.

Theorem plain_subquery_correct : forall q parents source outers o item,
  and_logic -> well_formed q parents -> equality_agrees q source o -> no_repetition V (q_tables V q) (where_conjuncts V q) ->
  q_kind V q = Plain V item -> q_limit V q = None -> In o outers ->
  subquery_values V L same q parents source outers o = Ok (sql_values V L same q source o).
Proof. intros. eapply plain_values; eassumption. Qed.

Theorem aggregate_subquery_correct : forall q parents source outers o f group,
  and_logic -> well_formed q parents -> equality_agrees q source o -> no_repetition V (q_tables V q) (where_conjuncts V q) ->
  only_equalities V (q_tables V q) (where_conjuncts V q) -> equivalence_b same ->
  q_kind V q = Aggregate V f group -> q_limit V q = None -> In o outers ->
  group <> [] \/ sql_rows V L q source o <> [] ->
  subquery_values V L same q parents source outers o = Ok (sql_values V L same q source o).
Proof.
  intros q parents source outers o f group A W E N OE EQ K Q I D. rewrite (aggregate_values q parents source outers o A W E N I f group K Q EQ OE).
  f_equal. destruct group as [|g group]; [|reflexivity]. destruct (sql_rows V L q source o); [|reflexivity].
  destruct D as [D|D]; exfalso; apply D; reflexivity.
Qed.

(** Without a row for the outer row, an aggregate without GROUP BY has no value (COUNT included). *)
Theorem aggregate_without_rows : forall q parents source outers o f,
  and_logic -> well_formed q parents -> equality_agrees q source o -> no_repetition V (q_tables V q) (where_conjuncts V q) ->
  only_equalities V (q_tables V q) (where_conjuncts V q) -> equivalence_b same ->
  q_kind V q = Aggregate V f [] -> q_limit V q = None -> In o outers -> sql_rows V L q source o = [] ->
  subquery_values V L same q parents source outers o = Ok [] /\ sql_values V L same q source o = [f []].
Proof.
  intros q parents source outers o f A W E N OE EQ K Q I D. rewrite (aggregate_values q parents source outers o A W E N I f [] K Q EQ OE). rewrite D.
  split; [reflexivity|]. unfold sql_values. rewrite K, Q, D. reflexivity.
Qed.
End P.
Print Assumptions plain_subquery_correct.
Print Assumptions aggregate_subquery_correct.
Print Assumptions aggregate_without_rows.

(** A subquery is rejected exactly when an equality with the outer query is written twice. *)
Theorem subquery_rejected : forall V L same q parents source outers o, well_formed V q parents ->
  (subquery_values V L same q parents source outers o = Err KeyError /\ ~ no_repetition V (q_tables V q) (where_conjuncts V q))
  \/ (exists l, subquery_values V L same q parents source outers o = Ok l) /\ no_repetition V (q_tables V q) (where_conjuncts V q).
Proof.
  intros V L same q parents source outers o [WN WW WI]. unfold subquery_values, where_conjuncts, parse. destruct (q_where V q) as [w|].
  - assert (At : Forall (atom V) (conjuncts V w)) by (apply Forall_forall; apply conjuncts_atoms).
    assert (Sc2 : forall e c, In e (conjuncts V w) -> In c (columns V e) -> scoped (q_tables V q) parents c)
      by (intros e c I J tb E; apply (WW w c tb eq_refl); [exact (conjuncts_columns V w e c I J)|exact E]).
    rewrite parse_conjuncts. destruct (parse_all V (q_tables V q) parents (conjuncts V w) (nothing V)) as [s|x] eqn:P.
    + right. split; [eexists; reflexivity|]. eapply parse_ok_distinct; eassumption.
    + left. split; [f_equal; exact (parse_only_keyerror V (q_tables V q) parents _ _ _ P At)|]. intros N.
      destruct (parse_accepts V (q_tables V q) parents WN (conjuncts V w) (nothing V) At Sc2 N) as [s H]; [intros e c p _ _ []|]. congruence.
  - right. split; [eexists; reflexivity|]. intros i j e e' c p I. destruct i; discriminate.
Qed.
Print Assumptions subquery_rejected.

(** *** Examples: integers or NULL *)
Definition sqlv := option Z.
Definition b3 (b : bool) : sqlv := Some (if b then 1 else 0)%Z.
Definition truev (x : sqlv) : bool := match x with Some z => negb (Z.eqb z 0) | None => false end.
Definition example_lang : lang sqlv := {|
  l_app := fun f args => match args with [Some x; Some y] => if text_eqb f (t "gt") then b3 (Z.ltb y x) else if text_eqb f (t "add") then Some (x + y)%Z else None | _ => None end;
  l_and := fun x y => if truev x && truev y then Some 1%Z else Some 0%Z;
  l_eq := fun x y => match x, y with Some x, Some y => b3 (Z.eqb x y) | _, _ => None end;
  l_conv := fun _ x => x; l_null := None; l_true := truev |}.
Definition samev (x y : sqlv) : bool := match x, y with Some x, Some y => Z.eqb x y | None, None => true | _, _ => false end.
Lemma example_and : and_logic sqlv example_lang.
Proof. intros x y. cbn. destruct (truev x), (truev y); reflexivity. Qed.
Lemma samev_equiv : equivalence_b samev.
Proof.
  split; [|split].
  - intros [z|]; [apply Z.eqb_refl|reflexivity].
  - intros [x|] [y|]; try reflexivity. apply Z.eqb_sym.
  - intros [x|] [y|] [z|]; cbn; try discriminate; try reflexivity. intros H1 H2. apply Z.eqb_eq in H1, H2. apply Z.eqb_eq. lia.
Qed.
(** A row with columns id, x of one table. *)
Definition ex_row (tb : text) (i x : Z) : row sqlv :=
  fun t0 n => match t0 with Some tb' => if text_eqb tb tb' then if text_eqb n (t "id") then Some i else if text_eqb n (t "x") then Some x else None else None
                          | None => if text_eqb n (t "id") then Some i else if text_eqb n (t "x") then Some x else None end.
Definition col (tb n : text) : expr sqlv := Col sqlv {| c_table := Some tb; c_name := n; c_type := None |}.
Definition a_id := col (t "a") (t "id").
Definition b_id := col (t "b") (t "id").
Definition b_x := col (t "b") (t "x").
Definition a_x := col (t "a") (t "x").
Definition count (l : list (row sqlv)) : sqlv := Some (Z.of_nat (length l)).
Definition source1 := [ex_row (t "b") 1 5; ex_row (t "b") 2 6; ex_row (t "b") 1 7].
Definition outers1 := [ex_row (t "a") 1 5; ex_row (t "a") 2 0; ex_row (t "a") 3 0].
Definition nth_outer i := nth i outers1 (ex_row (t "a") 0 0).
(** (SELECT b.x FROM b WHERE b.id = a.id AND b.x > a.x) and (SELECT COUNT... FROM b WHERE a.id = b.id). *)
Definition q_plain : query sqlv := {| q_tables := [t "b"]; q_where := Some (And sqlv (Eq sqlv b_id a_id) (App sqlv (t "gt") [b_x; a_x])); q_kind := Plain sqlv b_x; q_limit := None |}.
Definition q_count : query sqlv := {| q_tables := [t "b"]; q_where := Some (Eq sqlv a_id b_id); q_kind := Aggregate sqlv count []; q_limit := None |}.
Example q_plain_values : map (subquery_values sqlv example_lang samev q_plain [t "a"] source1 outers1) outers1 = [Ok [Some 7%Z]; Ok [Some 6%Z]; Ok []].
Proof. reflexivity. Qed.
Example q_count_values : map (subquery_values sqlv example_lang samev q_count [t "a"] source1 outers1) outers1 = [Ok [Some 2%Z]; Ok [Some 1%Z]; Ok []].
Proof. reflexivity. Qed.
Lemma q_plain_formed : well_formed sqlv q_plain [t "a"].
Proof.
  split.
  - intros tb [<-|[]] [E|[]]. discriminate E.
  - intros w c tb E I T. injection E as <-. cbn in I. destruct I as [<-|[<-|[<-|[<-|[]]]]]; cbn in T; injection T as <-; [left|right|left|right]; left; reflexivity.
  - intros e c [<-|[]] [<-|[]] tb T. cbn in T. injection T as <-. left. reflexivity.
Qed.
Lemma q_count_formed : well_formed sqlv q_count [t "a"].
Proof.
  split.
  - intros tb [<-|[]] [E|[]]. discriminate E.
  - intros w c tb E I T. injection E as <-. cbn in I. destruct I as [<-|[<-|[]]]; cbn in T; injection T as <-; [right|left]; left; reflexivity.
  - intros e c [].
Qed.
Lemma q_plain_once : no_repetition sqlv [t "b"] (where_conjuncts sqlv q_plain).
Proof.
  intros i j e e' c p I J [[->| ->] _] [[->| ->] _]; destruct i as [|[|[|i]]], j as [|[|[|j]]]; cbn in I, J; try discriminate; try reflexivity; congruence.
Qed.
Lemma q_count_once : no_repetition sqlv [t "b"] (where_conjuncts sqlv q_count).
Proof. intros i j e e' c p I J _ _. destruct i as [|[|i]], j as [|[|j]]; cbn in I, J; try discriminate; reflexivity. Qed.
Lemma q_count_equalities : only_equalities sqlv [t "b"] (where_conjuncts sqlv q_count).
Proof.
  intros e [<-|[]]. left. exists {| c_table := Some (t "b"); c_name := t "id"; c_type := None |}, {| c_table := Some (t "a"); c_name := t "id"; c_type := None |}.
  split; [right; reflexivity|]. split; [intros tb E; injection E as <-; left; reflexivity|]. split; [|reflexivity].
  exists (t "a"). split; [reflexivity|]. intros [E|[]]. discriminate E.
Qed.
Lemma q_plain_equality : forall o, In o outers1 -> equality_agrees sqlv example_lang samev q_plain source1 o.
Proof.
  intros o Io r a b I [E|[E|[]]]; [|discriminate E]. injection E as <- <-.
  destruct Io as [<-|[<-|[<-|[]]]]; destruct I as [<-|[<-|[<-|[]]]]; split; reflexivity.
Qed.
Lemma q_count_equality : forall o, In o outers1 -> equality_agrees sqlv example_lang samev q_count source1 o.
Proof.
  intros o Io r a b I [E|[]]. injection E as <- <-.
  destruct Io as [<-|[<-|[<-|[]]]]; destruct I as [<-|[<-|[<-|[]]]]; split; reflexivity.
Qed.
Example plain_applies : forall o, In o outers1 ->
  subquery_values sqlv example_lang samev q_plain [t "a"] source1 outers1 o = Ok (sql_values sqlv example_lang samev q_plain source1 o).
Proof.
  intros o I. eapply plain_subquery_correct; [exact example_and|exact q_plain_formed|exact (q_plain_equality o I)|exact q_plain_once|reflexivity|reflexivity|exact I].
Qed.
Example count_applies : subquery_values sqlv example_lang samev q_count [t "a"] source1 outers1 (nth_outer 0) = Ok (sql_values sqlv example_lang samev q_count source1 (nth_outer 0)).
Proof.
  eapply aggregate_subquery_correct; [exact example_and|exact q_count_formed|apply q_count_equality; left; reflexivity|exact q_count_once|exact q_count_equalities
    |exact samev_equiv|reflexivity|reflexivity|left; reflexivity|right; discriminate].
Qed.

(** COUNT over no rows is NULL (no value), not 0. *)
Theorem count_zero_refuted :
  subquery_values sqlv example_lang samev q_count [t "a"] source1 outers1 (nth_outer 2) = Ok []
  /\ sql_values sqlv example_lang samev q_count source1 (nth_outer 2) = [Some 0%Z].
Proof. split; reflexivity. Qed.
(** (SELECT b.x FROM b WHERE b.id = a.id LIMIT 1): the limit counts the rows of all outer rows together. *)
Definition q_limited : query sqlv := {| q_tables := [t "b"]; q_where := Some (Eq sqlv b_id a_id); q_kind := Plain sqlv b_x; q_limit := Some 1 |}.
Theorem subquery_limit_refuted :
  subquery_values sqlv example_lang samev q_limited [t "a"] source1 outers1 (nth_outer 1) = Ok []
  /\ sql_values sqlv example_lang samev q_limited source1 (nth_outer 1) = [Some 6%Z].
Proof. split; reflexivity. Qed.
(** (SELECT COUNT... FROM b WHERE b.x > a.id): one count for each value of b.x. *)
Definition q_greater : query sqlv := {| q_tables := [t "b"]; q_where := Some (App sqlv (t "gt") [b_x; a_id]); q_kind := Aggregate sqlv count []; q_limit := None |}.
Theorem aggregate_inequality_refuted :
  subquery_values sqlv example_lang samev q_greater [t "a"] source1 outers1 (nth_outer 0) = Ok [Some 1%Z; Some 1%Z; Some 1%Z]
  /\ sql_values sqlv example_lang samev q_greater source1 (nth_outer 0) = [Some 3%Z].
Proof. split; reflexivity. Qed.
(** (SELECT b.x FROM b WHERE b.id = b.x) inside a query on b: b.x is taken from the outer row. *)
Definition q_hidden : query sqlv := {| q_tables := [t "b"]; q_where := Some (Eq sqlv b_id b_x); q_kind := Plain sqlv b_x; q_limit := None |}.
Theorem same_name_refuted :
  subquery_values sqlv example_lang samev q_hidden [t "b"] [ex_row (t "b") 1 1; ex_row (t "b") 2 9] [ex_row (t "b") 2 2] (ex_row (t "b") 2 2) = Ok [Some 9%Z]
  /\ sql_values sqlv example_lang samev q_hidden [ex_row (t "b") 1 1; ex_row (t "b") 2 9] (ex_row (t "b") 2 2) = [Some 1%Z].
Proof. split; reflexivity. Qed.
(** WHERE b.id = a.id AND a.id = b.id is an error. *)
Definition q_twice : query sqlv := {| q_tables := [t "b"]; q_where := Some (And sqlv (Eq sqlv b_id a_id) (Eq sqlv a_id b_id)); q_kind := Plain sqlv b_x; q_limit := None |}.
Theorem equality_twice_refuted : forall source outers o, subquery_values sqlv example_lang samev q_twice [t "a"] source outers o = Err KeyError.
Proof. reflexivity. Qed.
Print Assumptions count_zero_refuted.
Print Assumptions subquery_limit_refuted.
Print Assumptions aggregate_inequality_refuted.
Print Assumptions same_name_refuted.
Print Assumptions equality_twice_refuted.

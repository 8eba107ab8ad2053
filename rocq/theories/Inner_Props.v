(** C209: aggregates at any depth of the items of the select list. *)
From Coq Require Import SpecFloat.
From Verif Require Import Base PyVal Utils_Model Calc_Model Agg_Model Agg_Spec Reduce_Spec Expr_Syntax Expr_Model Expr_Spec Expr_Proofs Expr_Props Having_Spec Having_Model Having_Proofs
  Group_Syntax Group_Model Group_Spec Group_Proofs Group_Props Inner_Syntax Inner_Model Inner_Spec Inner_Proofs.
Open Scope nat_scope.

Lemma part_inv : forall x e, part x e -> x = e \/ exists i c, In (i, c) (kids e) /\ part x c.
Proof.
  assert (MI : forall (l : list expr) (h : nat -> nat) y, In y l -> exists j, In (h j, y) (mapi (fun i x => (h i, x)) 0 l)).
  { intros l h y I. apply In_nth_error in I as (j & E). exists j. apply in_mapi. exists j, y. split; [exact E|reflexivity]. }
  intros x e P. destruct P; cbn [kids].
  all: try (left; reflexivity).
  all: right.
  all: try (exists 0, a; split; [left; reflexivity|assumption]).
  all: try (destruct H as [P|P]; [exists 0, a|exists 1, b]; (split; [cbn; tauto|exact P])).
  - destruct H as [P|(y & I & P)]; [exists 0, a; split; [left; reflexivity|exact P]|]. destruct (MI l S y I) as (j & J). exists (S j), y. split; [right; exact J|exact P].
  - destruct H as [P|[P|P]]; [exists 0, a|exists 1, b|exists 2, c]; (split; [cbn; tauto|exact P]).
  - destruct H as [P|[P|P]]; [exists 0, a|exists 1, b|exists 2, c]; (split; [cbn; tauto|exact P]).
  - destruct H as [P|(y & I & P)]; [exists 0, a; split; [left; reflexivity|exact P]|]. destruct (MI l S y I) as (j & J). exists (S j), y. split; [right; exact J|exact P].
  - exists 0, e. split; [left; reflexivity|exact P].
  - apply In_nth_error in H as (j & E).
    destruct H0 as [P|P]; [exists (S (S (2 * j))), w|exists (S (S (S (2 * j)))), y]; (split; [|exact P]); rewrite !in_app_iff; right; left; apply in_concati; exists j, (w, y);
      (split; [exact E|]); [left|right; left]; reflexivity.
  - exists 1, e. split; [|exact P]. rewrite !in_app_iff. right. right. left. reflexivity.
  - destruct (MI l (fun i => i) y H) as (j & J). exists j, y. split; [exact J|exact P].
Qed.

Lemma kid_class : forall e i c, exact e \/ cond e -> In (i, c) (kids e) -> exact c \/ cond c.
Proof.
  assert (X : forall e i c, exact e -> In (i, c) (kids e) -> exact c \/ cond c).
  { intros e i c H I. inversion H; subst; cbn [kids] in I.
    all: try (destruct I; fail).
    all: try (cbn [In] in I; repeat (destruct I as [I|I]; [injection I as <- <-; tauto|]); destruct I; fail).
    - destruct I as [I|I]; [injection I as <- <-; tauto|]. apply in_mapi in I as (j & x & E & I). injection I as -> ->. left.
      match goal with F : Forall exact l |- _ => rewrite Forall_forall in F; apply F end. eapply nth_error_In; exact E.
    - destruct I as [I|I]; [injection I as <- <-; tauto|]. apply in_mapi in I as (j & x & E & I). injection I as -> ->. left.
      match goal with F : Forall exact l |- _ => rewrite Forall_forall in F; apply F end. eapply nth_error_In; exact E.
    - cbn [app] in I. apply in_app_iff in I. destruct I as [I|[I|[]]]; [|injection I as <- <-; tauto].
      apply in_concati in I as (j & [w x] & E & I). match goal with F : Forall _ ifs |- _ => rewrite Forall_forall in F; destruct (F (w, x) (nth_error_In _ _ E)) as [W1 W2] end.
      cbn [fst snd] in *. destruct I as [I|[I|[]]]; injection I as _ <-; tauto.
    - cbn [app] in I. destruct I as [I|I]; [injection I as <- <-; tauto|]. apply in_app_iff in I. destruct I as [I|[I|[]]]; [|injection I as <- <-; tauto].
      apply in_concati in I as (j & [w x] & E & I). match goal with F : Forall _ ifs |- _ => rewrite Forall_forall in F; destruct (F (w, x) (nth_error_In _ _ E)) as [W1 W2] end.
      cbn [fst snd] in *. destruct I as [I|[I|[]]]; injection I as _ <-; tauto.
    - apply in_mapi in I as (j & x & E & I). injection I as -> ->. left.
      match goal with F : Forall exact l |- _ => rewrite Forall_forall in F; apply F end. eapply nth_error_In; exact E. }
  intros e i c [H|H] I; [eapply X; eassumption|]. inversion H; subst; [eapply X; eassumption|..]; cbn [kids] in I.
  all: try (destruct I; fail).
  all: cbn [app In] in I; repeat (destruct I as [I|I]; [injection I as <- <-; tauto|]); destruct I.
Qed.
Lemma part_class : forall x e, exact e \/ cond e -> part x e -> exact x \/ cond x.
Proof.
  intros x. induction e as [e IH] using kid_induction. intros H P. apply part_inv in P. destruct P as [->|(i & c & K & P)]; [exact H|].
  apply (IH i c K); [eapply kid_class; eassumption|exact P].
Qed.
Lemma aggregate_exact : forall e x a, exact e -> part x e -> as_aggregate x = Some a -> forall y, a_arg a = Some y -> exact y.
Proof.
  intros e x a X P A y Y. destruct (as_aggregate_fun x a A) as (k & l & -> & [(_ & E & _)|(z & -> & E)]); [congruence|]. rewrite E in Y. injection Y as ->.
  assert (Q : exact (EFun k [y])) by (destruct (part_class _ e (or_introl X) P) as [Q|Q]; [exact Q|inversion Q; assumption]).
  inversion Q as [| | | | | | | | | | | | | | |? ? F]; subst. inversion F. assumption.
Qed.
Lemma parse_complete : forall e p, parse_aggregate p e = [] -> aggregate_free e.
Proof.
  induction e as [e IH] using kid_induction. intros p E z b P B.
  destruct (as_aggregate e) as [a|] eqn:A.
  - destruct e; cbn [parse_aggregate] in E; unfold is_aggregate in E; rewrite A in E; discriminate E.
  - apply part_inv in P. destruct P as [->|(i & c & K & P)]; [congruence|]. apply (IH i c K (i :: p)) with z b; [|exact P|exact B].
    rewrite (parse_kids p e A) in E. clear -E K. induction (kids e) as [|[j d] l IHl]; [destruct K|]. cbn [map concat fst snd] in E. apply app_eq_nil in E. destruct E as [E1 E2].
    destruct K as [K|K]; [injection K as -> ->; exact E1|exact (IHl E2 K)].
Qed.
Lemma mapk_id : forall e, mapk (fun _ c => c) e = e.
Proof.
  assert (M : forall A (f : nat -> A -> A) l i, (forall j x, f j x = x) -> mapi f i l = l).
  { intros A f l. induction l as [|x l IH]; intros i H; [reflexivity|]. cbn [mapi]. rewrite H, IH by exact H. reflexivity. }
  intros e. destruct e; cbn [mapk]; try reflexivity; rewrite ?M; try reflexivity.
  - destruct f; reflexivity.
  - destruct this, els; reflexivity.
  - intros j [w x]. reflexivity.
Qed.
Lemma filled_free : forall V e, aggregate_free e -> filled V e e.
Proof.
  intros V. induction e as [e IH] using kid_induction. intros F. rewrite <- (mapk_id e) at 2. apply filled_mapk.
  - destruct (as_aggregate e) as [a|] eqn:A; [destruct (F e a (P_self e) A)|reflexivity].
  - intros i c K. apply (IH i c K). intros z b P. apply F. eapply part_kid; eassumption.
Qed.

Lemma assoc_pairs : forall A k (m : list (text * A)) v, assoc k m = Some v -> In (k, v) m.
Proof.
  intros A k. induction m as [|[k' v'] m IH]; intros v H; [discriminate H|]. cbn [assoc] in H. destruct (text_eqb k k') eqn:E.
  - apply text_eqb_spec in E. injection H as ->. left. congruence.
  - right. apply IH. exact H.
Qed.
Lemma Forall2_in_l : forall A B (R : A -> B -> Prop) l m x, Forall2 R l m -> In x l -> exists y, In y m /\ R x y.
Proof.
  intros A B R l m x F. induction F as [|a b l m H F IH]; intros I; [destruct I|]. destruct I as [->|I]; [exists b; split; [left; reflexivity|exact H]|].
  destruct (IH I) as (y & J & K). exists y. split; [right; exact J|exact K].
Qed.

Lemma const_forms : forall e, is_const e = true -> (exists c, e = EConst c) \/ exists c, e = ENeg (EConst c).
Proof. intros e C. destruct e as [c| | |e| | | | | | | | | | | |]; try discriminate C; [left; exists c; reflexivity|]. destruct e as [c| | | | | | | | | | | | | | |]; try discriminate C. right. exists c. reflexivity. Qed.

Section Item.
Variable nm : path -> text.
Variable e : expr.
Hypothesis injective : forall p q, nm p = nm q -> p = q.
Hypothesis fresh : forall p, ~ mentions (nm p) e.
Hypothesis NN : not_nested e.

Lemma found_in : forall n a, In (n, a) (found nm e) <-> exists q x, In (q, x) (parse_aggregate [] e) /\ as_aggregate x = Some a /\ n = nm q.
Proof.
  intros n a. unfold found. rewrite in_flat_map. split.
  - intros ([q x] & I & J). cbn [fst snd] in J. destruct (as_aggregate x) as [b|] eqn:A; [|destruct J]. destruct J as [J|[]]. injection J as <- <-. exists q, x. auto.
  - intros (q & x & I & A & ->). exists (q, x). split; [exact I|]. cbn [fst snd]. rewrite A. left. reflexivity.
Qed.
Lemma found_names : map fst (found nm e) = map nm (map fst (parse_aggregate [] e)).
Proof.
  unfold found. assert (H : forall q x, In (q, x) (parse_aggregate [] e) -> as_aggregate x <> None) by (intros q x I; apply (parse_sound e [] q x I NN)).
  induction (parse_aggregate [] e) as [|[q x] l IH]; [reflexivity|]. cbn [flat_map map fst snd]. destruct (as_aggregate x) as [a|] eqn:A.
  - cbn [app map fst]. rewrite IH by (intros q' x' I; apply (H q'); right; exact I). reflexivity.
  - destruct (H q x (or_introl eq_refl) A).
Qed.
Lemma found_nodup : NoDup (map fst (found nm e)).
Proof.
  rewrite found_names. pose proof (parse_nodup e [] NN) as D. induction D as [|q l H D IH]; cbn [map]; constructor; [|exact IH].
  intros I. apply in_map_iff in I as (q' & E & I). apply injective in E. subst q'. contradiction.
Qed.
Lemma marked_found : mark nm (fun p => existsb (path_eqb p) (map fst (parse_aggregate [] e))) [] e = markA nm [] e.
Proof. apply mark_markA; [exact NN|]. intros s. reflexivity. Qed.

(** A column of the marked expression is a state or a column outside the aggregates. *)
Lemma marked_columns : forall n, mentions n (markA nm [] e) -> In n (map fst (found nm e)) \/ outside n e.
Proof.
  intros n M. destruct (in_dec text_eq_dec n (map fst (found nm e))) as [I|I]; [left; exact I|right].
  set (s := fun m => if in_dec text_eq_dec m (map fst (found nm e)) then Some VNone else None).
  exists (subst s (markA nm [] e)). split.
  - apply filled_marked; [exact NN| |].
    + intros m Mm. unfold s. destruct (in_dec text_eq_dec m (map fst (found nm e))) as [J|J]; [|reflexivity].
      rewrite found_names in J. apply in_map_iff in J as (q & <- & _). destruct (fresh q Mm).
    + intros q x a J A. exists VNone. split; [|exact Logic.I]. unfold s. destruct (in_dec text_eq_dec (nm q) (map fst (found nm e))) as [K|K]; [reflexivity|].
      exfalso. apply K. rewrite found_names. apply in_map. apply in_map_iff. exists (q, x). split; [reflexivity|exact J].
  - apply columns_mentions. apply columns_mentions in M. apply columns_subst; [exact M|]. unfold s.
    destruct (in_dec text_eq_dec n (map fst (found nm e))); [contradiction|reflexivity].
Qed.

(** The value of the compiled item is the value of the expression. *)
Lemma item_is_expression : forall str_of tt fn rows r v, (forall c, e <> ENeg (EConst c)) ->
  item_value str_of (sem tt fn) rows r (select_item nm e) v -> expression_value str_of (sem tt fn) rows r e v.
Proof.
  intros so tt fn rows r v NC H. unfold select_item in H.
  destruct (is_const e) eqn:C.
  { destruct (const_forms e C) as [[c ->]|[c E]]; [|destruct (NC c E)].
    inversion H; subst. eexists. split; [constructor|reflexivity]. }
  assert (G : item_value so (sem tt fn) rows r
     (match as_aggregate e with Some a => IAgg a | None => match parse_aggregate [] e with
        | [] => ICalc e | l => IExpr (mark nm (fun p => existsb (path_eqb p) (map fst l)) [] e) (found nm e) end end) v ->
     expression_value so (sem tt fn) rows r e v).
  { clear H. intros H. destruct (as_aggregate e) as [a|] eqn:A.
    - inversion H; subst. exists (EConst v). split; [econstructor; eassumption|reflexivity].
    - destruct (parse_aggregate [] e) as [|h l] eqn:P.
      + inversion H; subst. exists e. split; [|reflexivity]. apply filled_free. eapply parse_complete. exact P.
      + rewrite <- P in H. rewrite marked_found in H. inversion H as [| | | |? ? vs F E1 E2]; subst.
        exists (subst (fun n => assoc n vs) (markA nm [] e)). split; [|rewrite sem_subst; reflexivity].
        assert (VN : map fst vs = map fst (found nm e)) by (clear -F; induction F as [|[n a] [m w] l l' [H1 _] F IH]; [reflexivity|]; cbn [map fst snd] in *; congruence).
        apply filled_marked; [exact NN| |].
        * intros n M. destruct (assoc n vs) as [w|] eqn:E; [|reflexivity]. exfalso. apply assoc_pairs in E. apply (in_map fst) in E. cbn [fst] in E. rewrite VN, found_names in E.
          apply in_map_iff in E as (q & <- & _). exact (fresh q M).
        * intros q x b J B. assert (K : In (nm q, b) (found nm e)) by (apply found_in; exists q, x; auto).
          destruct (Forall2_in_l _ _ _ _ _ _ F K) as ([n w] & W & N & X). cbn [fst snd] in *. subst n. exists w. split; [|exact X].
          apply assoc_nodup; [rewrite VN; apply found_nodup|exact W]. }
  destruct e; try (apply G; exact H); try discriminate C. inversion H; subst. exists (ECol name). split; [constructor|reflexivity].
Qed.
End Item.

Lemma select_item_uses : forall nm e a, not_nested e -> In a (aggregates (select_item nm e)) -> exists x, part x e /\ as_aggregate x = Some a.
Proof.
  intros nm e a N I. unfold select_item in I. destruct (is_const e); [destruct I|].
  assert (G : In a (aggregates (match as_aggregate e with Some a => IAgg a | None => match parse_aggregate [] e with
        | [] => ICalc e | l => IExpr (mark nm (fun p => existsb (path_eqb p) (map fst l)) [] e) (found nm e) end end)) -> exists x, part x e /\ as_aggregate x = Some a).
  { clear I. intros I. destruct (as_aggregate e) as [b|] eqn:A.
    - destruct I as [<-|[]]. exists e. split; [constructor|exact A].
    - destruct (parse_aggregate [] e) as [|h l] eqn:P; [destruct I|]. cbn [aggregates] in I. apply in_map_iff in I as ([n b] & <- & I). cbn [snd].
      apply found_in in I as (q & x & J & B & _). exists x. split; [|exact B]. apply (parse_sound e [] q x J N). }
  destruct e; try (apply G; exact I).
Qed.

Lemma items_of : forall nm w n i, In (n, i) (q_items (query_of nm w)) -> exists e, In (n, e) (w_items w) /\ i = select_item nm e.
Proof. intros nm w n i I. cbn [query_of q_items] in I. apply in_map_iff in I as ([m e] & E & I). cbn [fst snd] in E. injection E as <- <-. exists e. split; [exact I|reflexivity]. Qed.
Lemma written_plain : forall nm, (forall p q, nm p = nm q -> p = q) ->
  forall w, plain_written w -> (forall p alias e, In (alias, e) (w_items w) -> ~ mentions (nm p) e) -> plain_query (query_of nm w).
Proof.
  intros nm INJ w (ND & GK & PI & AG) FR. pose proof (items_of nm w) as In_items. rewrite Forall_forall in PI.
  unfold plain_query. split; [|split; [|split]].
    - cbn [query_of q_items]. rewrite map_map. cbn [fst]. exact ND.
    - cbn [query_of q_group]. eapply Forall_impl; [|exact GK]. intros [[|] n|e] H; [exact Logic.I| |split; [exact (proj1 H)|]; intros n C J; apply (proj2 H n C); cbn [query_of q_items] in J; rewrite map_map in J; exact J]. cbn [plain_key]. intros i I.
      apply In_items in I as (e & I & ->). rewrite (H e I). reflexivity.
    - apply Forall_forall. intros [n i] I. apply In_items in I as (e & I & ->). cbn [snd].
      destruct (PI _ I) as (X & N & NC & AC & OC). cbn [snd] in X, N, NC, AC, OC.
      assert (PA : forall x a, part x e -> as_aggregate x = Some a -> plain_aggregate a).
      { intros x a P A. destruct (AC x a P A) as [A1 A2]. split; [exact A1|]. split.
        - intros E. split; [exact (A2 E)|]. destruct (as_aggregate_fun x a A) as (k & l & -> & [(_ & _ & D)|(y & _ & Y)]); [exact D|congruence].
        - intros y Y. exact (aggregate_exact e x a X P A y Y). }
      unfold select_item. destruct (is_const e) eqn:C; [exact Logic.I|].
      assert (G : plain_item (q_items (query_of nm w)) (match as_aggregate e with Some a => IAgg a | None => match parse_aggregate [] e with
        | [] => ICalc e | l => IExpr (mark nm (fun p => existsb (path_eqb p) (map fst l)) [] e) (found nm e) end end)).
      { destruct (as_aggregate e) as [a|] eqn:A; [exact (PA e a (P_self e) A)|]. destruct (parse_aggregate [] e) as [|h l] eqn:P; [exact X|].
        rewrite <- P, marked_found by exact N. cbn [plain_item]. split; [apply exact_markA; exact X|].
        assert (FN : found nm e <> []). { intros Z. apply (f_equal (map fst)) in Z. rewrite found_names in Z by exact N. rewrite P in Z. discriminate Z. }
        split; [exact FN|]. split; [apply found_nodup; assumption|]. split.
        - apply Forall_forall. intros [m a] J. apply found_in in J as (q & x & J & B & _). cbn [snd]. apply (PA x); [|exact B]. apply (parse_sound e [] q x J N).
        - intros m M. destruct (marked_columns nm e (fun p => FR p n e I) N m M) as [J|O]; [left; exact J|right].
          assert (U : uses_aggregate e).
          { destruct h as [q x]. assert (J : In (q, x) (parse_aggregate [] e)) by (rewrite P; left; reflexivity). destruct (parse_sound e [] q x J N) as (_ & Px & Ax).
            destruct (as_aggregate x) as [a|] eqn:B; [|destruct (Ax eq_refl)]. exists x, a. split; assumption. }
          specialize (OC U eq_refl m O). cbn [query_of q_items]. apply in_map_iff. exists (m, ECol m). split; [reflexivity|exact OC]. }
      destruct e; try exact G. exact Logic.I.
    - apply Exists_exists in AG as ([n e] & I & (x & a & P & A)). cbn [snd] in *. destruct (PI _ I) as (X & N & NC & AC & OC). cbn [snd] in X, N, NC, AC, OC.
      exists n, (select_item nm e). split; [cbn [query_of q_items]; apply in_map_iff; exists (n, e); split; [reflexivity|exact I]|].
      unfold select_item. destruct (is_const e) eqn:C.
      { exfalso. destruct (const_forms e C) as [[c ->]|[c E]]; [inversion P; subst; discriminate A|destruct (NC c E)]. }
      assert (G : aggregates (match as_aggregate e with Some a => IAgg a | None => match parse_aggregate [] e with
        | [] => ICalc e | l => IExpr (mark nm (fun p => existsb (path_eqb p) (map fst l)) [] e) (found nm e) end end) <> []).
      { destruct (as_aggregate e) as [b|] eqn:B; [discriminate|]. destruct (parse_aggregate [] e) as [|h l] eqn:Q; [destruct (parse_complete e [] Q x a P A)|].
        cbn [aggregates]. intros Z. apply map_eq_nil in Z. apply (f_equal (map fst)) in Z. rewrite found_names in Z by exact N. rewrite Q in Z. discriminate Z. }
      destruct e; try exact G.
Qed.

(** Every query of the class [plain_written] compiles, and its result has one row per distinct value of the GROUP BY items, in order of first appearance,
    whose columns are the items of the select list computed with every aggregate call written anywhere in them replaced by its value over the rows of the
    group.  [state_name] gives every node of a tree a name of its own which is not a column of the query. *)
Theorem aggregates_anywhere : forall frepr ident ext lib tt str_of pick nested raw state_name, ext (t "neg") = None ->
  (forall rs, rs <> [] -> In (pick rs) rs) ->
  (forall p q, state_name p = state_name q -> p = q) ->
  forall w, plain_written w -> (forall p alias e, In (alias, e) (w_items w) -> ~ mentions (state_name p) e) ->
  exists cfg, compile_written state_name frepr ident ext w = Ok cfg /\
  forall rows, let value := sem tt (sql_fn frepr ident ext lib) in
    let keyed := map (fun r => (written_key value w r, r)) rows in
    Forall (fun r => equal_keys (written_key value w r) (written_key value w r) = true) rows ->
    (forall k alias e x a, In k (keys equal_keys keyed) -> In (alias, e) (w_items w) -> part x e -> as_aggregate x = Some a ->
       summable (a_fun a) (a_distinct a) (argument value a (members equal_keys keyed k))) ->
    exists out, run_query frepr ident ext lib str_of pick nested raw cfg rows = Ok out /\
      Forall2 (fun k row => exists r, In r (members equal_keys keyed k) /\
        Forall2 (fun ne nv => fst nv = fst ne /\ expression_value str_of value (members equal_keys keyed k) r (snd ne) (snd nv)) (w_items w) row)
        (keys equal_keys keyed) out.
Proof.
  intros fr id ext lib tt so pick nested raw nm NN HP INJ w PW FR. pose proof (written_plain nm INJ w PW FR) as PQ. destruct PW as (ND & GK & PI & AG).
  pose proof (items_of nm w) as In_items. rewrite Forall_forall in PI.
  destruct (group_query_correct fr id ext lib tt so pick nested raw NN HP _ PQ) as (cfg & C & _ & H). exists cfg. split; [exact C|].
  intros rows value keyed RF SU. destruct (H rows RF) as (out & R & F).
  { intros k alias i a K I J. apply In_items in I as (e & I & ->). destruct (PI _ I) as (_ & N & _). cbn [snd] in N.
    destruct (select_item_uses nm e a N J) as (x & P & A). exact (SU k alias e x a K I P A). }
  exists out. split; [exact R|]. eapply Forall2_weaken; [|exact F]. intros k row (r & Ir & Fr). exists r. split; [exact Ir|].
  cbn [query_of q_items] in Fr. rewrite Forall2_map_l in Fr. cbn [fst snd] in Fr.
  assert (G : forall l, (forall ne, In ne l -> In ne (w_items w)) -> forall row',
    Forall2 (fun ne nv => fst nv = fst ne /\ item_value so value (members equal_keys keyed k) r (select_item nm (snd ne)) (snd nv)) l row' ->
    Forall2 (fun ne nv => fst nv = fst ne /\ expression_value so value (members equal_keys keyed k) r (snd ne) (snd nv)) l row'); [|apply G; [auto|exact Fr]].
  clear -PI FR INJ. induction l as [|[n e] l IH]; intros S row' F; inversion F as [|? nv ? row'' [E V] F']; subst; constructor; [|apply IH; [intros ne J; apply S; right; exact J|exact F']].
  split; [exact E|]. cbn [fst snd] in *. assert (I : In (n, e) (w_items w)) by (apply S; left; reflexivity). destruct (PI _ I) as (_ & N & NC & _). cbn [snd] in N, NC.
  exact (item_is_expression nm e INJ (fun p => FR p n e I) N so tt _ _ r _ NC V).
Qed.
Print Assumptions aggregates_anywhere.

(** ** SELECT a AS a, IF(SUM(b) > COUNT( * ), MAX(b), a) AS x, COUNT(DISTINCT b) AS n GROUP BY a meets the hypotheses. *)
Definition nm0 (p : path) : text := t "value_" ++ flat_map (fun n => repeat 49%N n ++ [46%N]) p.
Example nm0_injective : forall p q, nm0 p = nm0 q -> p = q.
Proof.
  intros p q H. unfold nm0 in H. apply app_inv_head in H. revert q H. induction p as [|x p IH]; intros [|y q] H; [reflexivity| | |].
  - exfalso. destruct y; discriminate H.
  - exfalso. destruct x; discriminate H.
  - cbn [flat_map] in H. rewrite <- !app_assoc in H. cbn [app] in H.
    assert (G : forall x y (u v : text), repeat 49%N x ++ 46%N :: u = repeat 49%N y ++ 46%N :: v -> x = y /\ u = v).
    { clear. induction x as [|x IH]; intros [|y] u v H; cbn [repeat app] in H; try discriminate H.
      - injection H as ->. split; reflexivity.
      - injection H as H. destruct (IH y u v H) as [-> ->]. split; reflexivity. }
    destruct (G _ _ _ _ H) as [-> E]. f_equal. apply IH. exact E.
Qed.
Definition sum_of_b : expr := EFun (t "sum") [ECol B].
Definition max_of_b : expr := EFun (t "max") [ECol B].
Definition count_of_all : expr := EFun (t "count") [].
Definition chosen : expr := EIf (EBin (t "gt") sum_of_b count_of_all) max_of_b (Some (ECol A)).
Definition w1 : written := mkwritten [(A, ECol A); (t "x", chosen); (t "n", EFun (t "count distinct") [ECol B])] [KeyCol false A].
Lemma no_parts_col : forall x n, part x (ECol n) -> x = ECol n.
Proof. intros x n P. inversion P. reflexivity. Qed.
Lemma chosen_parts : forall x, part x chosen -> In x [chosen; EBin (t "gt") sum_of_b count_of_all; sum_of_b; count_of_all; max_of_b; ECol A; ECol B].
Proof.
  intros x P. apply part_inv in P. destruct P as [->|(i & c & K & P)]; [cbn; tauto|]. cbn in K. destruct K as [K|[K|[K|[]]]]; injection K as <- <-.
  - apply part_inv in P. destruct P as [->|(i & c & K & P)]; [cbn; tauto|]. cbn in K. destruct K as [K|[K|[]]]; injection K as <- <-.
    + apply part_inv in P. destruct P as [->|(i & c & K & P)]; [cbn; tauto|]. cbn in K. destruct K as [K|[]]; injection K as <- <-. apply no_parts_col in P. subst. cbn; tauto.
    + apply part_inv in P. destruct P as [->|(i & c & K & P)]; [cbn; tauto|]. destruct K.
  - apply part_inv in P. destruct P as [->|(i & c & K & P)]; [cbn; tauto|]. cbn in K. destruct K as [K|[]]; injection K as <- <-. apply no_parts_col in P. subst. cbn; tauto.
  - apply no_parts_col in P. subst. cbn; tauto.
Qed.
Example w1_plain : plain_written w1.
Proof.
  unfold plain_written, w1. cbn [w_items w_group map fst snd]. split; [|split; [|split]].
  - apply NoDup_cons; [intros [E|[E|[]]]; discriminate E|]. apply NoDup_cons; [intros [E|[]]; discriminate E|]. apply NoDup_cons; [intros []|apply NoDup_nil].
  - apply Forall_cons; [|apply Forall_nil]. intros e [E|[E|[E|[]]]]; inversion E; reflexivity.
  - apply Forall_cons; [|apply Forall_cons; [|apply Forall_cons; [|apply Forall_nil]]]; cbn [snd fst].
    + split; [constructor|]. split; [intros x a y z b P A; apply no_parts_col in P; subst; discriminate A|]. split; [discriminate|]. split.
      * intros x a P A. apply no_parts_col in P. subst. discriminate A.
      * intros (x & a & P & A). apply no_parts_col in P. subst. discriminate A.
    + split; [|split; [|split; [discriminate|split]]].
      * apply X_if; [apply C_bool; [|constructor; reflexivity]|apply X_fun; repeat constructor|constructor].
        apply X_bin; apply X_fun; repeat constructor.
      * intros x a y z b P A Y Q Bz. apply chosen_parts in P. cbn [In] in P.
        repeat (destruct P as [<-|P]; [cbn in A; first [discriminate A | injection A as <-; cbn in Y; first [discriminate Y | injection Y as <-; apply no_parts_col in Q; subst; discriminate Bz]]|]). destruct P.
      * intros x a P A. apply chosen_parts in P. cbn [In] in P.
        repeat (destruct P as [<-|P]; [cbn in A; first [discriminate A | injection A as <-; cbn; split; intros; congruence]|]). destruct P.
      * intros _ _ n (e' & F & M). inversion F as [? a v Q| | | | | | | | | | | |? ? ? ? ? ? F1 F2 F3| | | | ]; subst; [discriminate Q|].
        inversion F1 as [? a v Q| | | | | | | | |? ? ? ? ? G1 G2| | | | | | | ]; subst; [discriminate Q|].
        inversion G1 as [? a v Q| | | | | | | | | | | | | | | |? ? ? Q]; subst; [|discriminate Q].
        inversion G2 as [? a2 v2 Q2| | | | | | | | | | | | | | | |? ? ? Q2]; subst; [|discriminate Q2].
        inversion F2 as [? a3 v3 Q3| | | | | | | | | | | | | | | |? ? ? Q3]; subst; [|discriminate Q3].
        inversion F3 as [|? ? F4]; subst. inversion F4 as [? ? ? Q4| | | | | | | | | | | | | | | | ]; subst; [discriminate Q4|].
        apply columns_mentions in M. cbn in M. destruct M as [<-|[]]. left. reflexivity.
    + split; [apply X_fun; repeat constructor|]. assert (PC : forall x, part x (EFun (t "count distinct") [ECol B]) -> x = EFun (t "count distinct") [ECol B] \/ x = ECol B).
      { intros x P. apply part_inv in P. destruct P as [->|(i & c & K & P)]; [left; reflexivity|]. cbn in K. destruct K as [K|[]]; injection K as <- <-. right. apply no_parts_col. exact P. }
      split; [|split; [discriminate|split]].
      * intros x a y z b P A Y Q Bz. destruct (PC x P) as [->| ->]; [|discriminate A]. cbn in A. injection A as <-. cbn in Y. injection Y as <-. apply no_parts_col in Q. subst. discriminate Bz.
      * intros x a P A. destruct (PC x P) as [->| ->]; [|discriminate A]. cbn in A. injection A as <-. cbn. split; [reflexivity|discriminate].
      * intros _ Z. discriminate Z.
  - apply Exists_cons_tl. apply Exists_cons_hd. exists max_of_b. eexists. split; [|reflexivity]. apply P_if_else. right. left. constructor.
Qed.
Example w1_fresh : forall p alias e, In (alias, e) (w_items w1) -> ~ mentions (nm0 p) e.
Proof.
  intros p alias e I M. apply columns_mentions in M. cbn [w_items w1 In] in I.
  destruct I as [I|[I|[I|[]]]]; injection I as <- <-; vm_compute in M; repeat (destruct M as [M|M]; [discriminate M|]); destruct M.
Qed.
Example w1_runs : (do cfg <- compile_written nm0 fr0 id0 no_ext w1;
    run_query fr0 id0 no_ext no_lib (fun _ => []) first (fun _ _ => VNone) (fun _ => VNone) cfg rows1)
  = Ok [[(A, VInt 1); (t "x", VInt 10); (t "n", VInt 2)]; [(A, VInt 2); (t "x", VInt 5); (t "n", VInt 1)]].
Proof. vm_compute. reflexivity. Qed.
(** A nested aggregate is found too, beside the one around it. *)
Example nested_found : map snd (parse_aggregate [] (EBin (t "add") (EFun (t "sum") [EFun (t "count") [ECol B]]) (EConst (VInt 1))))
  = [EFun (t "sum") [EFun (t "count") [ECol B]]; EFun (t "count") [ECol B]].
Proof. reflexivity. Qed.

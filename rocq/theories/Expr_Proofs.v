(** Proofs about compiled expressions. *)
From Coq Require Import SpecFloat.
From Verif Require Import Base PyVal Utils_Model Calc_Model Calc_Proofs Calc_Props Expr_Syntax Expr_Model Expr_Spec.
Open Scope Z_scope.

Definition bool3 (v : val) : Prop := v = VNone \/ v = VInt 0 \/ v = VInt 1.

Lemma bool3_b2v : forall b, bool3 (b2v b).
Proof. intros []; [right; right|right; left]; reflexivity. Qed.

Lemma truthy_truth : forall tt v, (forall s, v <> VStr s) -> truthy v = match truth tt v with Some true => true | _ => false end.
Proof.
  intros tt v H. destruct v as [|b|z|f|s| | |]; cbn; try reflexivity.
  - destruct b; reflexivity.
  - destruct (z =? 0); reflexivity.
  - destruct f; reflexivity.
  - exfalso. apply (H s). reflexivity.
Qed.
Lemma bool3_not_str : forall v, bool3 v -> forall s, v <> VStr s.
Proof. intros v [->|[->| ->]] s; discriminate. Qed.
Lemma bool3_of3 : forall tt v, bool3 v -> of3 (truth tt v) = v.
Proof. intros tt v [->|[->| ->]]; reflexivity. Qed.
Lemma of3_bool3 : forall o, bool3 (of3 o).
Proof. intros [[]|]; [right; right|right; left|left]; reflexivity. Qed.
Lemma truth_of3 : forall tt o, truth tt (of3 o) = o.
Proof. intros tt [[]|]; reflexivity. Qed.

Lemma op2_eq : forall f a b, op2 f [a; b] = guarded (f a b).
Proof. reflexivity. Qed.
Lemma op1_eq : forall f a, op1 f [a] = guarded (f a).
Proof. reflexivity. Qed.

Lemma bool3_equ : forall fr ne a b, bool3 (guarded (mysql_equ fr ne a b)).
Proof.
  intros fr ne a b. unfold mysql_equ.
  repeat match goal with |- context [if ?c then _ else _] => destruct c; cbn [guarded]; try apply bool3_b2v; try (left; reflexivity) end.
  - destruct (ensure_number a); cbn; [|apply bool3_b2v]. destruct (ensure_number b); cbn; apply bool3_b2v.
  - destruct (ensure_str fr a); cbn; [|left; reflexivity].
    destruct (ensure_str fr b); cbn; [apply bool3_b2v|left; reflexivity].
Qed.

Lemma bool3_out : forall r : res bool, bool3 (guarded (do x <- r; Ok (b2v x))).
Proof. intros [x|]; cbn; [apply bool3_b2v|left; reflexivity]. Qed.
Lemma bool3_try : forall a b, bool3 (guarded a) -> bool3 (guarded b) -> bool3 (guarded (try_ a b)).
Proof. intros [x|e] b A B; cbn in *; assumption. Qed.

Lemma bool3_ord : forall fr op a b, bool3 (guarded (mysql_ord fr op a b)).
Proof.
  intros fr op a b. unfold mysql_ord.
  assert (R : forall x y, bool3 (guarded (do z <- op x y; Ok (b2v z)))) by (intros; apply bool3_out).
  assert (Rest : bool3 (guarded (if is_none a || is_none b then Ok VNone
    else if is_number a then
      if is_number b then do x <- op a b; Ok (b2v x)
      else try_ (do x <- ensure_number a; do y <- ensure_number b; do z <- op x y; Ok (b2v z)) (do x <- op a b; Ok (b2v x))
    else if is_str a then
      if is_str b then do x <- op a b; Ok (b2v x)
      else do x <- ensure_str fr a; do y <- ensure_str fr b; do z <- op x y; Ok (b2v z)
    else do x <- op a b; Ok (b2v x)))).
  { destruct (is_none a || is_none b); [left; reflexivity|].
    destruct (is_number a).
    { destruct (is_number b); [apply R|]. apply bool3_try; [|apply R].
      destruct (ensure_number a); [|left; reflexivity]. destruct (ensure_number b); [|left; reflexivity]. apply R. }
    destruct (is_str a); [|apply R]. destruct (is_str b); [apply R|].
    destruct (ensure_str fr a); [|left; reflexivity]. destruct (ensure_str fr b); [|left; reflexivity]. apply R. }
  destruct (same_class a b); [|exact Rest].
  destruct (is_none a); [left; reflexivity|]. apply bool3_try; [apply R|exact Rest].
Qed.

Section Facts.
Variable frepr : spec_float -> text.
Variable ident : val -> val -> bool.
Variable ext : text -> option (list val -> val).
Variable lib : text -> list val -> val.
Variable tt : text -> bool.
Hypothesis no_neg : ext (t "neg") = None.             (* there is no mysql_neg *)
Notation mysql := (mysql frepr ident ext).
Notation compile := (compile frepr ident ext).
Notation ev := (ev frepr ident ext lib).
Notation func_column := (func_column frepr ident ext).
Notation call_mysql := (call_mysql frepr ident ext).
Notation call_lib := (call_lib lib).

(** The SQL functions by name: the registered MySQL function, else the calculater of the library. *)
Definition sql_fn (name : text) (args : list val) : val :=
  match mysql name with Some f => f args | None => call_lib name args end.
Notation sem := (sem tt sql_fn).

Lemma ev_func : forall row k args, ev row (func_column k args) = sql_fn k (map (ev row) args).
Proof.
  intros. unfold func_column, is_mysql_func, sql_fn, Expr_Model.func_column, is_mysql_func.
  destruct (mysql k) eqn:E; cbn [Expr_Model.ev]; [unfold Expr_Model.call_mysql; rewrite E|]; reflexivity.
Qed.

Lemma call_mysql_fn : forall k args, is_mysql_func frepr ident ext k = true -> call_mysql k args = sql_fn k args.
Proof.
  intros k args H. unfold is_mysql_func in H. unfold Expr_Model.call_mysql, sql_fn. destruct (mysql k); [reflexivity|discriminate].
Qed.

Lemma fn_eq : forall a b, sql_fn (t "eq") [a; b] = guarded (mysql_eq frepr a b).
Proof. reflexivity. Qed.
Lemma fn_is : forall a b, sql_fn (t "is") [a; b] = guarded (mysql_is frepr ident a b).
Proof. reflexivity. Qed.
Lemma fn_gte : forall a b, sql_fn (t "gte") [a; b] = guarded (mysql_gte frepr a b).
Proof. reflexivity. Qed.
Lemma fn_lte : forall a b, sql_fn (t "lte") [a; b] = guarded (mysql_lte frepr a b).
Proof. reflexivity. Qed.

Lemma bool3_cmp : forall k a b, comparison_op k = true -> bool3 (sql_fn k [a; b]).
Proof.
  intros k a b H. unfold comparison_op in H. cbn [existsb] in H.
  repeat (apply orb_true_iff in H; destruct H as [H|H]; [apply text_eqb_spec in H; subst k|]); try discriminate.
  - change (bool3 (guarded (mysql_eq frepr a b))). apply bool3_equ.
  - change (bool3 (guarded (mysql_neq frepr a b))). apply bool3_equ.
  - change (bool3 (guarded (mysql_gt frepr a b))). apply bool3_ord.
  - change (bool3 (guarded (mysql_gte frepr a b))). apply bool3_ord.
  - change (bool3 (guarded (mysql_lt frepr a b))). apply bool3_ord.
  - change (bool3 (guarded (mysql_lte frepr a b))). apply bool3_ord.
Qed.

Lemma bool3_is : forall a b, bool3 (guarded (mysql_is frepr ident a b)).
Proof.
  intros a b. unfold mysql_is. destruct (same_class a b); [apply bool3_b2v|].
  destruct (is_none a || is_none b); [right; left; reflexivity|apply bool3_equ].
Qed.

Lemma is_not_is : forall a b,
  guarded (mysql_is_not frepr ident a b) = of3 (not3 (truth tt (guarded (mysql_is frepr ident a b)))).
Proof.
  intros a b. unfold mysql_is, mysql_is_not. destruct (same_class a b) eqn:C.
  { cbn [guarded]. destruct (is_none a || ident a b); reflexivity. }
  destruct (is_none a || is_none b) eqn:N; [reflexivity|].
  unfold mysql_eq, mysql_neq, mysql_equ. rewrite C, N.
  destruct (is_number a).
  { destruct (is_number b); [cbn [guarded]; destruct (pyeq a b); reflexivity|].
    destruct (ensure_number a); cbn [bind try_ guarded]; [|destruct (pyeq a b); reflexivity].
    destruct (ensure_number b); cbn [bind try_ guarded]; destruct (pyeq _ _); reflexivity. }
  destruct (is_str a); [|cbn [guarded]; destruct (pyeq a b); reflexivity].
  destruct (is_str b); [cbn [guarded]; destruct (pyeq a b); reflexivity|].
  destruct (ensure_str frepr a); cbn [bind guarded]; [|reflexivity].
  destruct (ensure_str frepr b); cbn [bind guarded]; [|reflexivity]. destruct (pyeq _ _); reflexivity.
Qed.

Lemma not_value : forall v, bool3 v -> guarded (mysql_not v) = of3 (not3 (truth tt v)).
Proof. intros v [->|[->| ->]]; reflexivity. Qed.

Lemma bool3_not : forall v, bool3 (guarded (mysql_not v)).
Proof. intros v. unfold mysql_not. destruct (is_none v); [left; reflexivity|apply bool3_b2v]. Qed.

Lemma eq_null : forall x y, guarded (mysql_eq frepr x y) = VNone <-> x = VNone \/ y = VNone.
Proof. intros x y. rewrite <- sql2_eq. apply (compare_eq_null frepr x y). Qed.

Lemma bool3_in : forall x l, bool3 (guarded (mysql_in frepr x l)).
Proof.
  intros x l. unfold mysql_in. destruct (is_none x); [left; reflexivity|].
  generalize false. induction l as [|v l IH]; intros h; cbn [in_loop].
  - destruct h; [left|right; left]; reflexivity.
  - destruct (is_none v); [apply IH|]. destruct (eq_never_fails frepr x v) as [r ->]. cbn [bind].
    destruct (truthy r); [right; right; reflexivity|apply IH].
Qed.

Lemma in_value : forall x l, l <> [] ->
  guarded (mysql_in frepr x l) =
  of3 (fold_right or3 (Some false) (map (fun y => truth tt (sql_fn (t "eq") [x; y])) l)).
Proof.
  intros x l Hl. unfold mysql_in. destruct (is_none x) eqn:Nx.
  { assert (x = VNone) as -> by (destruct x; try discriminate; reflexivity).
    assert (N : forall y, truth tt (sql_fn (t "eq") [VNone; y]) = None).
    { intros y. rewrite fn_eq. rewrite (proj2 (eq_null VNone y)) by auto. reflexivity. }
    destruct l as [|v l]; [congruence|]. cbn [map fold_right guarded]. rewrite N.
    assert (K : forall m, let o := fold_right or3 (Some false) (map (fun y => truth tt (sql_fn (t "eq") [VNone; y])) m) in
       o = None \/ o = Some false).
    { induction m as [|w m IH]; cbv zeta in *; cbn [map fold_right]; [auto|]. rewrite N. destruct IH as [-> | ->]; cbn; auto. }
    destruct (K l) as [-> | ->]; reflexivity. }
  assert (G : forall m h, guarded (in_loop frepr x m h) =
    of3 (or3 (if h then None else Some false)
             (fold_right or3 (Some false) (map (fun y => truth tt (sql_fn (t "eq") [x; y])) m)))).
  { induction m as [|v m IH]; intros h; cbn [in_loop map fold_right].
    - destruct h; reflexivity.
    - rewrite fn_eq. destruct (is_none v) eqn:Nv.
      + assert (v = VNone) as -> by (destruct v; try discriminate; reflexivity).
        rewrite (proj2 (eq_null x VNone)) by auto. rewrite IH. cbn [truth].
        destruct h, (fold_right _ _ _) as [[]|]; reflexivity.
      + destruct (eq_never_fails frepr x v) as [r Hr]. rewrite Hr. cbn [bind guarded].
        pose proof (bool3_equ frepr false x v) as Q. fold (mysql_eq frepr) in Q. rewrite Hr in Q. cbn [guarded] in Q.
        destruct Q as [->|[->| ->]].
        * assert (Z : guarded (mysql_eq frepr x v) = VNone) by (rewrite Hr; reflexivity).
          apply eq_null in Z. destruct Z; subst; discriminate.
        * cbn [truthy Z.eqb negb]. rewrite IH. cbn. destruct h, (fold_right _ _ _) as [[]|]; reflexivity.
        * cbn. destruct h; reflexivity. }
  rewrite G. destruct (fold_right _ _ _) as [[]|]; reflexivity.
Qed.

(** *** Value classes of compiled expressions *)
Lemma ev_ifnull : forall row q b,
  ev row (QIf (QLib (t "is_null") [q]) b q) = if is_none (ev row q) then ev row b else ev row q.
Proof. reflexivity. Qed.

Lemma boolean_bool3 : forall e row, boolean e -> bool3 (ev row (compile e)).
Proof.
  intros e row H. induction H.
  - cbn [Expr_Model.compile]. rewrite ev_func. cbn [map]. apply bool3_cmp. assumption.
  - cbn [Expr_Model.compile]. rewrite ev_func. cbn [map]. rewrite fn_is. apply bool3_is.
  - cbn [Expr_Model.compile Expr_Model.ev]. apply bool3_in.
  - destruct a; cbn [Expr_Model.compile];
      try (match goal with |- bool3 (ev row (QMysql (t "not") [?q])) =>
             change (bool3 (guarded (mysql_not (ev row q)))); apply bool3_not end).
    change (bool3 (guarded (mysql_is_not frepr ident (ev row (compile a1)) (ev row (compile a2))))).
    rewrite is_not_is. apply of3_bool3.
  - right; right; reflexivity.
  - right; left; reflexivity.
  - left; reflexivity.
  - exact IHboolean.
  - cbn [Expr_Model.compile Expr_Model.ev]. destruct (truthy _); [assumption|right; left; reflexivity].
  - cbn [Expr_Model.compile Expr_Model.ev]. destruct (truthy _); [right; right; reflexivity|assumption].
  - cbn [Expr_Model.compile Expr_Model.ev]. destruct (truthy _); assumption.
  - cbn [Expr_Model.compile]. cbv zeta. rewrite ev_ifnull. destruct (is_none _); assumption.
Qed.

Lemma never_null_value : forall e row, never_null e -> ev row (compile e) <> VNone.
Proof.
  intros e row H. induction H.
  - exact H.
  - cbn [Expr_Model.compile]. rewrite ev_func. cbn [map]. rewrite fn_is. cbn [Expr_Model.ev].
    destruct (ev row (compile a)); discriminate.
  - change (guarded (mysql_is_not frepr ident (ev row (compile a)) VNone) <> VNone).
    destruct (ev row (compile a)); discriminate.
  - exact IHnever_null.
  - cbn [Expr_Model.compile]. cbv zeta. rewrite ev_ifnull. destruct (is_none (ev row (compile a))) eqn:N; [assumption|].
    intros E. rewrite E in N. discriminate.
Qed.

Lemma ev_not : forall row a, bool3 (ev row (compile a)) ->
  ev row (compile (ENot a)) = of3 (not3 (truth tt (ev row (compile a)))).
Proof.
  intros row a H.
  destruct a; try (match goal with |- ev row (compile (ENot ?x)) = _ =>
    change (guarded (mysql_not (ev row (compile x))) = of3 (not3 (truth tt (ev row (compile x))))); apply not_value; exact H end).
  change (guarded (mysql_is_not frepr ident (ev row (compile a1)) (ev row (compile a2))) =
    of3 (not3 (truth tt (ev row (compile (EIs a1 a2)))))).
  cbn [Expr_Model.compile]. rewrite ev_func. cbn [map]. rewrite fn_is. apply is_not_is.
Qed.

Lemma ev_coalesce : forall row l, ev row (coalesce l) = first_value (map (ev row) l).
Proof.
  intros row. induction l as [|q l IH]; [reflexivity|]. destruct l as [|q' l]; [cbn; destruct (ev row q); reflexivity|].
  change (ev row (coalesce (q :: q' :: l))) with (ev row (QIf (QLib (t "is_null") [q]) (coalesce (q' :: l)) q)).
  rewrite ev_ifnull, IH. cbn [map first_value]. destruct (ev row q); reflexivity.
Qed.

Lemma ev_build_if : forall row value ifs els (c : valuer -> option bool),
  (forall w a, In (w, a) ifs ->
     truthy (ev row (match value with None => w | Some v => QMysql (t "eq") [v; w] end))
     = match c w with Some true => true | _ => false end) ->
  ev row (build_if value ifs els) = first_true (map (fun wa => (c (fst wa), ev row (snd wa))) ifs) (ev row els).
Proof.
  intros row value ifs els c. induction ifs as [|[w a] r IH]; intros H; [reflexivity|].
  cbn [build_if Expr_Model.ev map first_true fst snd]. rewrite (H w a) by (left; reflexivity).
  destruct (c w) as [[]|]; try reflexivity; apply IH; intros; eapply H; right; eauto.
Qed.

Lemma truthy_bool3 : forall v, bool3 v -> (truthy v = true <-> truth tt v = Some true).
Proof. intros v [->|[->| ->]]; cbn; split; congruence. Qed.

(** *** Main induction *)
Lemma from_exact : forall e row, ev row (compile e) = sem row e -> boolean e ->
  (truthy (ev row (compile e)) = true <-> truth tt (sem row e) = Some true).
Proof. intros e row E B. rewrite <- E. apply truthy_bool3. apply boolean_bool3. exact B. Qed.

Lemma iff_truthy : forall v o, (truthy v = true <-> o = Some true) -> truthy v = match o with Some true => true | _ => false end.
Proof. intros v o [A B]. destruct (truthy v); [rewrite A by reflexivity; reflexivity|]. destruct o as [[]|]; try reflexivity. specialize (B eq_refl). discriminate B. Qed.

Lemma map_sem : forall row l, Forall exact l ->
  Forall (fun e => (exact e -> ev row (compile e) = sem row e) /\
                   (cond e -> (truthy (ev row (compile e)) = true <-> truth tt (sem row e) = Some true))) l ->
  map (ev row) (map compile l) = map (sem row) l.
Proof.
  intros row l X IH. induction l as [|e l IHl]; [reflexivity|]. inversion X; subst. inversion IH; subst.
  cbn [map]. f_equal; [apply H3; assumption|apply IHl; assumption].
Qed.

Lemma first_true_match : forall (l l' : list (option bool * val)) els,
  Forall2 (fun x y => (fst x = Some true <-> fst y = Some true) /\ snd x = snd y) l l' ->
  first_true l els = first_true l' els.
Proof.
  intros l l' els H. induction H as [|[a v] [b w] l l' [A B] H IH]; [reflexivity|]. cbn [fst snd] in *. subst w.
  cbn [first_true]. destruct a as [[]|], b as [[]|]; try assumption; try reflexivity;
  exfalso; destruct A as [A1 A2]; try (discriminate A1; reflexivity); try (discriminate A2; reflexivity).
Qed.

Lemma compiled : forall e row,
  (exact e -> ev row (compile e) = sem row e) /\
  (cond e -> (truthy (ev row (compile e)) = true <-> truth tt (sem row e) = Some true)).
Proof.
  intros e row.
  induction e as [v|n|a IHa|a IHa|a IHa|a b IHa IHb|a b IHa IHb|a b IHa IHb|k a b IHa IHb|a l IHa IHl|a lo hi IHa IHlo IHhi
                 |c a f IHc IHa IHf|a b IHa IHb|a l IHa IHl|o ifs els IHo IHifs IHels|k l IHl] using expr_induction.
  all: match goal with |- (exact ?e -> ?A) /\ _ => assert (X : exact e -> A) end.
  all: try (intros H; inversion H; subst; clear H).
  all: try (split; [exact X|]; intros C; inversion C; subst; try (apply from_exact; [apply X; assumption|assumption])).
  all: cbn [Expr_Model.compile Expr_Model.ev Expr_Spec.sem] in *.
  all: try reflexivity.
  - (* constant as a condition *)
    rewrite (truthy_truth tt v) by assumption. destruct (truth tt v) as [[]|]; split; congruence.
  - (* paren *) apply IHa; assumption.
  - apply IHa; assumption.
  - (* neg *) cbn [map]. rewrite (proj1 IHa) by assumption. unfold sql_fn.
    change (mysql (t "neg")) with (ext (t "neg")). rewrite no_neg. reflexivity.
  - (* not *) rewrite <- (proj1 IHa) by assumption. apply ev_not. apply boolean_bool3. assumption.
  - (* and, exact *)
    destruct IHa as [IHa _], IHb as [IHb _].
    pose proof (boolean_bool3 _ row H3) as Ba. pose proof (boolean_bool3 _ row H6) as Bb. pose proof (never_null_value _ row H4) as Na.
    rewrite <- IHa, <- IHb by assumption. destruct Ba as [Ba|[Ba|Ba]]; rewrite Ba; [congruence| |];
      destruct Bb as [Bb|[Bb|Bb]]; rewrite Bb; reflexivity.
  - (* and, condition *)
    destruct IHa as [_ IHa], IHb as [_ IHb]. specialize (IHa ltac:(assumption)). specialize (IHb ltac:(assumption)).
    rewrite truth_of3. apply iff_truthy in IHa. rewrite IHa.
    destruct (truth tt (sem row a)) as [[]|].
    + rewrite IHb. destruct (truth tt (sem row b)) as [[]|]; cbn; split; congruence.
    + cbn. split; discriminate.
    + destruct (truth tt (sem row b)) as [[]|]; cbn; split; congruence.
  - (* or, exact *)
    destruct IHa as [IHa _], IHb as [IHb _].
    pose proof (boolean_bool3 _ row H3) as Ba. pose proof (boolean_bool3 _ row H6) as Bb. pose proof (never_null_value _ row H4) as Na.
    rewrite <- IHa, <- IHb by assumption. destruct Ba as [Ba|[Ba|Ba]]; rewrite Ba; [congruence| |];
      destruct Bb as [Bb|[Bb|Bb]]; rewrite Bb; reflexivity.
  - destruct IHa as [_ IHa], IHb as [_ IHb]. specialize (IHa ltac:(assumption)). specialize (IHb ltac:(assumption)).
    rewrite truth_of3. apply iff_truthy in IHa. rewrite IHa.
    destruct (truth tt (sem row a)) as [[]|].
    + cbn. split; reflexivity.
    + rewrite IHb. destruct (truth tt (sem row b)) as [[]|]; cbn; split; congruence.
    + rewrite IHb. destruct (truth tt (sem row b)) as [[]|]; cbn; split; congruence.
  - (* is *) rewrite ev_func. cbn [map]. rewrite (proj1 IHa), (proj1 IHb) by assumption. reflexivity.
  - (* binary *) rewrite ev_func. cbn [map]. rewrite (proj1 IHa), (proj1 IHb) by assumption. reflexivity.
  - (* in *) rewrite (proj1 IHa), map_sem by assumption. rewrite in_value by (destruct l; [congruence|discriminate]).
    rewrite map_map. reflexivity.
  - (* between *)
    rewrite (proj1 IHa), (proj1 IHlo), (proj1 IHhi) by assumption. rewrite truth_of3.
    rewrite !call_mysql_fn by reflexivity.
    pose proof (bool3_cmp (t "gte") (sem row a) (sem row lo) eq_refl) as G.
    pose proof (bool3_cmp (t "lte") (sem row a) (sem row hi) eq_refl) as L.
    destruct G as [G|[G|G]]; rewrite G; destruct L as [L|[L|L]]; rewrite L; cbn; split; congruence.
  - (* if *) destruct IHc as [_ IHc]. specialize (IHc ltac:(assumption)). apply iff_truthy in IHc. rewrite IHc.
    rewrite (proj1 IHa) by assumption. cbn [opt_all] in IHf. rewrite (proj1 IHf) by assumption.
    destruct (truth tt (sem row c)) as [[]|]; reflexivity.
  - destruct IHc as [_ IHc]. specialize (IHc ltac:(assumption)). apply iff_truthy in IHc. rewrite IHc.
    cbn [opt_all] in IHf. destruct (truth tt (sem row c)) as [[]|]; [apply IHa|apply IHf|apply IHf]; assumption.
  - (* ifnull *) cbv zeta. change (ev row (QIf (QLib (t "is_null") [compile a]) (compile b) (compile a)) = first_value [sem row a; sem row b]).
    rewrite ev_ifnull, (proj1 IHa), (proj1 IHb) by assumption. cbn [first_value].
    destruct (sem row a); cbn [is_none]; try reflexivity. destruct (sem row b); reflexivity.
  - (* coalesce *) cbv zeta.
    change (ev row (QIf (QLib (t "is_null") [compile a]) (coalesce (map compile l)) (compile a)) = first_value (sem row a :: map (sem row) l)).
    rewrite ev_ifnull, (proj1 IHa), ev_coalesce, map_sem by assumption. cbn [first_value].
    destruct (sem row a); reflexivity.
  - (* searched case *)
    rewrite (ev_build_if row None _ _ (fun w => if truthy (ev row w) then Some true else None)).
    2: { intros w x _. destruct (truthy (ev row w)); reflexivity. }
    cbn [opt_all] in IHels. rewrite (proj1 IHels) by assumption. rewrite map_map. apply first_true_match.
    match goal with K : Forall (fun wt => cond (fst wt) /\ exact (snd wt)) _ |- _ => rename K into HF end.
    clear IHo. induction ifs as [|[w x] r IHr]; [constructor|].
    apply Forall_cons_iff in IHifs. destruct IHifs as [[[_ Hw] [Hx _]] IHifs].
    apply Forall_cons_iff in HF. destruct HF as [[Cw Ex] HF]. constructor.
    2: apply IHr; assumption.
    cbn [fst snd] in *. specialize (Hw Cw). specialize (Hx Ex).
    split; [|exact Hx]. rewrite <- Hw. destruct (truthy (ev row (compile w))); split; congruence.
  - (* simple case, some WHEN not constant *)
    assert (forallb (fun wt => is_const (fst wt)) ifs = false) as ->.
    { apply not_true_iff_false. intros F. rewrite forallb_forall in F. 
      match goal with K : exists _, _ |- _ => destruct K as (wt & I & N) end. specialize (F _ I).
      destruct (fst wt) as [v| | |y| | | | | | | | | | | |]; try discriminate; [destruct (N v); congruence|].
      destruct y as [v| | | | | | | | | | | | | | |]; try discriminate. destruct (N v); congruence. }
    rewrite (ev_build_if row (Some _) _ _ (fun w => truth tt (sql_fn (t "eq") [ev row (compile e); ev row w]))).
    2: { intros w x _. change (ev row (QMysql (t "eq") [compile e; w])) with (sql_fn (t "eq") [ev row (compile e); ev row w]).
         apply truthy_truth. apply bool3_not_str. apply bool3_cmp. reflexivity. }
    cbn [opt_all] in IHels, IHo. rewrite (proj1 IHels), (proj1 IHo) by assumption. rewrite map_map. apply first_true_match.

    match goal with K : Forall (fun wt => exact (fst wt) /\ exact (snd wt)) _ |- _ => rename K into HF end.
    match goal with K : exists _, _ |- _ => clear K end.
    clear IHo. induction ifs as [|[w x] r IHr]; [constructor|].
    apply Forall_cons_iff in IHifs. destruct IHifs as [[[Hw _] [Hx _]] IHifs].
    apply Forall_cons_iff in HF. destruct HF as [[Cw Ex] HF]. constructor.
    2: apply IHr; assumption.
    cbn [fst snd] in *. rewrite (Hw Cw), (Hx Ex). split; [tauto|reflexivity].
  - (* function *) rewrite ev_func, map_sem by assumption. reflexivity.
Qed.
End Facts.

(** C57, C58: HAVING. *)
From Coq Require Import SpecFloat.
From Verif Require Import Base PyVal Utils_Model Calc_Model Calc_Proofs Calc_Props Str_Model Regexp_Model Regexp_Props Expr_Syntax Expr_Model Expr_Spec Expr_Proofs Expr_Props
  Having_Model Having_Spec Having_Proofs.
Open Scope Z_scope.

(** Every column of the condition is in the select list ([None]: select all). *)
Definition known_columns (schema : option (list text)) (e : expr) : Prop :=
  forall l, schema = Some l -> forall n, mentions n e -> In n l.

Lemma operand_ok : forall fr id ext schema e, known_columns schema e -> operand fr id ext schema e = Ok (compile fr id ext e).
Proof.
  intros fr id ext schema e K. unfold operand.
  assert (forallb (in_schema schema) (columns e) = true) as ->; [|reflexivity].
  apply forallb_forall. intros n I. unfold in_schema. destruct schema as [l|]; [|reflexivity].
  apply existsb_exists. exists n. split; [|apply text_eqb_refl]. apply (K l eq_refl). apply columns_mentions. exact I.
Qed.
Lemma operand_inv : forall fr id ext schema e q, operand fr id ext schema e = Ok q -> known_columns schema e.
Proof.
  intros fr id ext schema e q H l -> n M. unfold operand in H.
  destruct (forallb (in_schema (Some l)) (columns e)) eqn:F; [|discriminate].
  rewrite forallb_forall in F. specialize (F n (proj2 (columns_mentions n e) M)). unfold in_schema in F.
  apply existsb_exists in F as (m & I & E). apply text_eqb_spec in E. subst m. exact I.
Qed.

(** HAVING accepts every such condition on columns of the select list and keeps exactly the result rows on which it is
    TRUE (not those on which it is FALSE or NULL), whatever the rows. *)
Theorem having_filters : forall frepr ident ext lib tt, ext (t "neg") = None ->
  forall schema other rematch e, hcond e -> known_columns schema e ->
  exists h, having frepr ident ext schema other e = Ok h /\
  forall rows row, In row (filter_having frepr ident ext lib rematch h rows) <->
    In row rows /\ truth tt (sem tt (sql_fn frepr ident ext lib) row e) = Some true.
Proof.
  intros fr id ext lib tt N schema other rm e C K.
  enough (Q : exists h, having fr id ext schema other e = Ok h /\
    forall row, truthy (hev fr id ext lib rm row h) = true <-> truth tt (sem tt (sql_fn fr id ext lib) row e) = Some true).
  { destruct Q as (h & E & Q). exists h. split; [exact E|]. intros rows row. unfold filter_having. rewrite filter_In. unfold keeps. rewrite Q. reflexivity. }
  assert (X : forall a, exact a -> forall row, ev fr id ext lib row (compile fr id ext a) = sem tt (sql_fn fr id ext lib) row a)
    by (intros a Ha row; exact (compiled_value fr id ext lib tt N a Ha row)).
  induction C as [a b Ca IHa Cb IHb|a b Ca IHa Cb IHb|a Ca IHa|k a b Hk Xa Xb|a b Xa Xb|a l Xa L Xl|a Xa Ba]; cbn [having].
  - destruct IHa as (x & Ex & Qx); [intros l -> n M; apply (K l eq_refl); apply M_and; tauto|].
    destruct IHb as (y & Ey & Qy); [intros l -> n M; apply (K l eq_refl); apply M_and; tauto|].
    rewrite Ex, Ey. eexists. split; [reflexivity|]. intros row. cbn [hev sem]. rewrite truth_of3.
    pose proof (iff_truthy _ _ (Qx row)) as Hx. pose proof (iff_truthy _ _ (Qy row)) as Hy. rewrite Hx.
    destruct (truth tt (sem tt _ row a)) as [[]|]; destruct (truth tt (sem tt _ row b)) as [[]|]; rewrite ?Hy; cbn; split; congruence.
  - destruct IHa as (x & Ex & Qx); [intros l -> n M; apply (K l eq_refl); apply M_or; tauto|].
    destruct IHb as (y & Ey & Qy); [intros l -> n M; apply (K l eq_refl); apply M_or; tauto|].
    rewrite Ex, Ey. eexists. split; [reflexivity|]. intros row. cbn [hev sem]. rewrite truth_of3.
    pose proof (iff_truthy _ _ (Qx row)) as Hx. pose proof (iff_truthy _ _ (Qy row)) as Hy. rewrite Hx.
    destruct (truth tt (sem tt _ row a)) as [[]|]; destruct (truth tt (sem tt _ row b)) as [[]|]; rewrite ?Hy; cbn; split; congruence.
  - destruct IHa as (x & Ex & Qx); [intros l -> n M; apply (K l eq_refl); apply M_paren; tauto|].
    exists x. split; [exact Ex|exact Qx].
  - assert (text_eqb k (t "like") = false) as ->.
    { apply text_eqb_neq. intros ->. discriminate Hk. }
    unfold operands. rewrite !operand_ok by (intros l -> n M; apply (K l eq_refl); apply M_bin; tauto). cbn [bind].
    unfold comparison_op in Hk. rewrite Hk.
    eexists. split; [reflexivity|]. intros row. cbn [hev ev sem map].
    rewrite (X a Xa row), (X b Xb row).
    assert (call_mysql fr id ext k [sem tt (sql_fn fr id ext lib) row a; sem tt (sql_fn fr id ext lib) row b] =
            sql_fn fr id ext lib k [sem tt (sql_fn fr id ext lib) row a; sem tt (sql_fn fr id ext lib) row b]) as ->.
    { apply call_mysql_fn. unfold is_mysql_func. apply existsb_exists in Hk as (k' & I & E). apply text_eqb_spec in E. subst k'.
      cbn [In] in I. repeat (destruct I as [<-|I]; [reflexivity|]). destruct I. }
    apply truthy_bool3. apply bool3_cmp. exact Hk.
  - unfold operands. rewrite !operand_ok by (intros l -> n M; apply (K l eq_refl); apply M_is; tauto). cbn [bind].
    eexists. split; [reflexivity|]. intros row. cbn [hev sem]. rewrite ev_func. cbn [map]. rewrite (X a Xa row), (X b Xb row).
    apply truthy_bool3. rewrite fn_is. apply bool3_is.
  - rewrite operand_ok by (intros s -> n M; apply (K s eq_refl); apply M_in; tauto). cbn [bind].
    eexists. split; [reflexivity|]. intros row.
    change (truthy (ev fr id ext lib row (compile fr id ext (EIn a l))) = true <-> truth tt (sem tt (sql_fn fr id ext lib) row (EIn a l)) = Some true).
    rewrite (X (EIn a l) (X_in a l Xa L Xl) row). cbn [sem]. apply truthy_bool3. apply of3_bool3.
  - rewrite operand_ok by (intros s -> n M; apply (K s eq_refl); apply M_not; tauto). cbn [bind].
    eexists. split; [reflexivity|]. intros row. cbn [hev]. rewrite ev_func. cbn [map sem]. rewrite (X a Xa row).
    change (sql_fn fr id ext lib (t "not") [sem tt (sql_fn fr id ext lib) row a]) with (op1 mysql_not [sem tt (sql_fn fr id ext lib) row a]). rewrite op1_eq.
    rewrite (not_value tt).
    + apply truthy_bool3. apply of3_bool3.
    + rewrite <- (X a Xa row). exact (boolean_bool3 fr id ext lib tt a row Ba).
Qed.
Print Assumptions having_filters.

(** A condition on a column that is not in the select list is rejected, except where the compiler does not look: in the list of
    IN, and in the bounds of BETWEEN and the branches of IF at the top of a condition. *)
Inductive looked_at (n : text) : expr -> Prop :=
| L_and a b : looked_at n a \/ looked_at n b -> looked_at n (EAnd a b)
| L_or a b : looked_at n a \/ looked_at n b -> looked_at n (EOr a b)
| L_paren a : looked_at n a -> looked_at n (EParen a)
| L_bin k a b : mentions n a \/ mentions n b -> looked_at n (EBin k a b)
| L_is a b : mentions n a \/ mentions n b -> looked_at n (EIs a b)
| L_in a l : mentions n a -> looked_at n (EIn a l)
| L_between a lo hi : mentions n a -> looked_at n (EBetween a lo hi)
| L_if c a f : mentions n c -> looked_at n (EIf c a f)
| L_not a : mentions n a -> looked_at n (ENot a)
| L_neg a : mentions n a -> looked_at n (ENeg a).
Theorem having_unknown_column : forall frepr ident ext other schema n e,
  looked_at n e -> ~ In n schema ->
  exists err, having frepr ident ext (Some schema) other e = Err err.
Proof.
  intros fr id ext other schema n e L Hn.
  assert (Op : forall a, mentions n a -> exists err, operand fr id ext (Some schema) a = Err err).
  { intros a M. destruct (operand fr id ext (Some schema) a) as [q|err] eqn:E; [|exists err; reflexivity].
    destruct Hn. exact (operand_inv _ _ _ _ _ _ E schema eq_refl n M). }
  assert (Two : forall a b, mentions n a \/ mentions n b -> exists err, operands fr id ext (Some schema) a b = Err err).
  { intros a b M. unfold operands. destruct (operand fr id ext (Some schema) a) as [q|err] eqn:E; cbn [bind]; [|exists err; reflexivity].
    destruct M as [M|M]; [destruct (Op a M) as [err K]; congruence|]. destruct (Op b M) as [err ->]. exists err. reflexivity. }
  revert L. induction e; intros L; inversion L; subst; cbn [having].
  - apply IHe. assumption.
  - destruct (Op e) as [err ->]; [assumption|]. exists err. reflexivity.
  - destruct (Op e) as [err ->]; [assumption|]. exists err. reflexivity.
  - destruct (having fr id ext (Some schema) other e1) as [x|err]; cbn [bind]; [|exists err; reflexivity].
    destruct H0 as [H0|H0]; [destruct (IHe1 H0) as [err K]; discriminate|]. destruct (IHe2 H0) as [err ->]. exists err. reflexivity.
  - destruct (having fr id ext (Some schema) other e1) as [x|err]; cbn [bind]; [|exists err; reflexivity].
    destruct H0 as [H0|H0]; [destruct (IHe1 H0) as [err K]; discriminate|]. destruct (IHe2 H0) as [err ->]. exists err. reflexivity.
  - destruct (Two e1 e2) as [err ->]; [assumption|]. exists err. reflexivity.
  - destruct (text_eqb key (t "like")).
    + destruct (operand fr id ext (Some schema) e1) as [x|err] eqn:E; cbn [bind]; [|exists err; reflexivity].
      destruct H0 as [H0|H0]; [destruct (Op e1 H0) as [err K]; congruence|]. destruct (Op e2 H0) as [err ->]. exists err. reflexivity.
    + destruct (Two e1 e2) as [err E]; [assumption|]. rewrite E. destruct (existsb _ _); exists err; reflexivity.
  - destruct (Op e) as [err ->]; [assumption|]. exists err. reflexivity.
  - destruct (Op e1) as [err ->]; [assumption|]. exists err. reflexivity.
  - destruct (Op e1) as [err ->]; [assumption|]. exists err. reflexivity.
Qed.
Print Assumptions having_unknown_column.

(** The external regular expressions, on patterns of plain characters and ".*" only: some prefix of the text matches. *)
Definition matches_plain (rematch : text -> val -> bool) : Prop :=
  forall toks s, Forall plain_tok toks -> rematch (render toks) (VStr s) = re_match N.eqb toks s.

(** LIKE in HAVING with a pattern of plain characters and '%', no "%%", ending in '%', on texts without newline, is SQL's LIKE,
    case-sensitive. *)
Theorem having_like_final_percent : forall frepr ident ext lib tt, ext (t "neg") = None ->
  forall schema other rematch, matches_plain rematch ->
  forall e p0, exact e -> known_columns schema e ->
  Forall (fun c => c = 37%N \/ plain c = true) p0 -> no_double (p0 ++ [37%N]) ->
  exists h, having frepr ident ext schema other (EBin (t "like") e (EConst (VStr (p0 ++ [37%N])))) = Ok h /\
  forall row s, sem tt (sql_fn frepr ident ext lib) row e = VStr s -> Forall (fun c => c <> 10%N) s ->
  (keeps frepr ident ext lib rematch h row = true <-> like N.eqb (p0 ++ [37%N]) s).
Proof.
  intros fr id ext lib tt N schema other rm MP e p0 X K F ND. cbn [having]. change (text_eqb (t "like") (t "like")) with true. cbv iota.
  rewrite operand_ok by exact K. unfold operand at 1. cbn [columns forallb bind compile].
  eexists. split; [reflexivity|]. intros row s Hs NL. unfold keeps. cbn [hev].
  rewrite (compiled_value fr id ext lib tt N e X row), Hs.
  assert (F' : Forall (fun c => c = 37%N \/ plain c = true) (p0 ++ [37%N])) by (apply Forall_app; split; [exact F|repeat constructor]).
  destruct (having_pattern_plain _ F' ND) as [-> T]. rewrite (MP _ _ T).
  assert (U : Forall (fun c => c <> 95%N) (p0 ++ [37%N])).
  { eapply Forall_impl; [|exact F']. intros c [-> | P]; [discriminate|]. destruct (plain_not c P) as (_ & _ & _ & Q & _). exact Q. }
  rewrite <- (like_final_percent N.eqb p0 s).
  2:{ apply Forall_app in U. apply U. }
  2: exact ND. 2: exact NL.
  rewrite sql2_eq. unfold mysql_like, like_pattern. cbn [is_none orb guarded].
  assert (text_eqb (p0 ++ [37%N]) [37; 37]%N = false) as ->.
  { apply text_eqb_neq. intros E. rewrite E in ND. destruct ND. }
  destruct (re_match N.eqb (like_tokens (p0 ++ [37%N])) s); unfold b2v; split; intros Q; try reflexivity; discriminate Q.
Qed.
Print Assumptions having_like_final_percent.

(** The hypothesis on regular expressions is met: a matcher for such patterns. *)
Fixpoint parse_plain (p : text) : list tok :=
  match p with
  | [] => []
  | c :: r => if (c =? 46)%N then match r with d :: r' => if (d =? 42)%N then Any :: parse_plain r' else Lit c :: parse_plain r | [] => [Lit c] end
              else Lit c :: parse_plain r
  end.
Definition plain_re (p : text) (v : val) : bool := match v with VStr s => re_match N.eqb (parse_plain p) s | _ => false end.
Example plain_re_ok : matches_plain plain_re.
Proof.
  intros toks s F. unfold plain_re. assert (parse_plain (render toks) = toks) as ->; [|reflexivity].
  induction F as [|[c|] l H F IH]; [reflexivity| |].
  - change (render (Lit c :: l)) with (c :: render l). cbn [parse_plain].
    destruct (plain_not c H) as (D & _). apply N.eqb_neq in D. rewrite D, IH. reflexivity.
  - change (render (Any :: l)) with (46%N :: 42%N :: render l). cbn [parse_plain]. change (46 =? 46)%N with true. change (42 =? 42)%N with true. cbv iota. rewrite IH. reflexivity.
Qed.

(** ** What does not hold *)

(** The bounds of a BETWEEN at the top of a condition are not looked at: every two such conditions are the same. *)
Theorem having_between_refuted : forall frepr ident ext schema other a lo hi lo' hi',
  having frepr ident ext schema other (EBetween a lo hi) = having frepr ident ext schema other (EBetween a lo' hi').
Proof. reflexivity. Qed.
(** Nor are the branches of IF. *)
Theorem having_if_refuted : forall frepr ident ext schema other c a f a' f',
  having frepr ident ext schema other (EIf c a f) = having frepr ident ext schema other (EIf c a' f').
Proof. reflexivity. Qed.
(** A column or a constant alone is no condition; LIKE needs a constant text. *)
Theorem having_bare_refuted : forall frepr ident ext schema other,
  (forall n, having frepr ident ext schema other (ECol n) = Err CompileError) /\
  (forall v, exists e, having frepr ident ext schema other (EConst v) = Err e) /\
  (forall a n, exists e, having frepr ident ext schema other (EBin (t "like") a (ECol n)) = Err e).
Proof.
  intros. repeat split.
  - intros []; cbn; eexists; reflexivity.
  - intros a n. cbn [having]. change (text_eqb (t "like") (t "like")) with true. cbv iota.
    destruct (operand frepr ident ext schema a) as [x|e]; [|exists e; reflexivity]. cbn [bind].
    destruct (operand frepr ident ext schema (ECol n)) as [y|e] eqn:E; [|exists e; reflexivity]. cbn [bind].
    unfold operand in E. destruct (forallb (in_schema schema) (columns (ECol n))); [|discriminate]. injection E as <-. exists CompileError. reflexivity.
Qed.

Definition keeps0 (h : res hcol) (row : text -> val) : bool :=
  match h with Ok h => keeps fr0 id0 no_ext no_lib plain_re h row | Err _ => false end.
Definition having0 (e : expr) : res hcol := having fr0 id0 no_ext None (fun _ => Err OtherError) e.
Definition a_like (p : text) : expr := EBin (t "like") (ECol (t "a")) (EConst (VStr p)).
Definition row_a (s : text) : text -> val := fun n => if text_eqb n (t "a") then VStr s else VNone.
(** LIKE: a pattern not ending in '%' accepts every longer text; '_' is no wildcard; "%%" stands for a percent sign; '%' does not match a newline;
    and special characters of regular expressions keep their meaning. *)
Theorem having_like_refuted :
  (keeps0 (having0 (a_like (t "ab"))) (row_a (t "abc")) = true /\ ~ like N.eqb (t "ab") (t "abc")) /\
  (keeps0 (having0 (a_like (t "a_c%"))) (row_a (t "abc")) = false /\ like N.eqb (t "a_c%") (t "abc")) /\
  (having0 (a_like (t "a%%b")) = Ok (HMatch (t "a%b") (QCol (t "a"))) /\
   keeps0 (having0 (a_like (t "a%%b"))) (row_a (t "axb")) = false /\ like N.eqb (t "a%%b") (t "axb")) /\
  having0 (a_like (t "1.5%")) = Ok (HMatch (t "1.5.*") (QCol (t "a"))) /\
  having0 (a_like (t "(a%")) = Ok (HMatch (t "(a.*") (QCol (t "a"))) /\
  (keeps0 (having0 (a_like (t "a%b%"))) (row_a [97; 10; 98]%N) = false /\ like N.eqb (t "a%b%") [97; 10; 98]%N).
Proof.
  repeat split.
  - exact (proj1 (proj2 like_refuted)).
  - apply like_char; [discriminate..|reflexivity|]. apply like_underscore. apply like_char; [discriminate..|reflexivity|].
    apply (like_percent N.eqb [] [] []). constructor.
  - apply like_char; [discriminate..|reflexivity|]. apply (like_percent N.eqb _ [] (t "xb")). apply (like_percent N.eqb _ (t "x") (t "b")).
    apply like_char; [discriminate..|reflexivity|]. constructor.
  - apply like_char; [discriminate..|reflexivity|]. apply (like_percent N.eqb _ [10%N] [98%N]).
    apply like_char; [discriminate..|reflexivity|]. apply (like_percent N.eqb [] [] []). constructor.
Qed.
Print Assumptions having_like_refuted.
(** ... so that LIKE and NOT LIKE can both be true: NOT LIKE is compiled by compile_calculate, where the comparison is another one. *)
Definition like_ext (n : text) : option (list val -> val) := if text_eqb n (t "like") then Some (op2 (mysql_like N.eqb)) else None.
Theorem having_not_like_refuted :
  let keep e := match having fr0 id0 like_ext None (fun _ => Err OtherError) e with
                | Ok h => keeps fr0 id0 like_ext no_lib plain_re h (row_a (t "a%b")) | Err _ => false end in
  keep (a_like (t "a%%b")) = true /\ keep (ENot (a_like (t "a%%b"))) = true.
Proof. split; reflexivity. Qed.
(** A column of the list of IN that is not in the select list is accepted. *)
Theorem having_in_unknown_refuted : forall frepr ident ext other a n l,
  exists h, having frepr ident ext (Some [a]) other (EIn (ECol a) (ECol n :: l)) = Ok h.
Proof. intros. cbn [having]. unfold operand. cbn [columns forallb in_schema existsb]. rewrite text_eqb_refl. eexists. reflexivity. Qed.

(** Non-trivial cases: HAVING n > 1 AND (NOT a = 1 OR n IN (3, a)), over a select list a, n. *)
Definition n_gt_1 := EBin (t "gt") (ECol (t "n")) (EConst (VInt 1)).
Definition having_ex := EAnd n_gt_1 (EParen (EOr (ENot a_is_1) (EIn (ECol (t "n")) [EConst (VInt 3); ECol (t "a")]))).
Example having_ex_ok : hcond having_ex /\ known_columns (Some [t "a"; t "n"]) having_ex.
Proof.
  split.
  - apply HC_and; [apply HC_cmp; [reflexivity|constructor..]|]. apply HC_paren, HC_or.
    + apply HC_not; [repeat constructor|apply B_cmp; reflexivity].
    + apply HC_in; [constructor|discriminate|repeat constructor].
  - intros l [= <-] n M. apply columns_mentions in M. cbn in M. cbn [In]. intuition.
Qed.
Example having_unknown_ex : looked_at (t "b") (EAnd n_gt_1 (ENot b_is_5)) /\ ~ In (t "b") [t "a"; t "n"].
Proof. split; [apply L_and; right; apply L_not, M_bin; left; constructor|cbn; intuition discriminate]. Qed.
Example having_like_ex : Forall (fun c => c = 37%N \/ plain c = true) (t "%lo w") /\ no_double (t "%lo w" ++ [37%N]).
Proof. split; [repeat (constructor; [first [left; reflexivity|right; reflexivity]|]); constructor|exact I]. Qed.

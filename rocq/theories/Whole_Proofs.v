(** Lemmas for Whole_Props. *)
From Coq Require Import SpecFloat Permutation Sorting.Sorted.
From Verif Require Import Base PyVal Utils_Model Calc_Model Expr_Syntax Expr_Model Expr_Spec Expr_Proofs Expr_Props Where_Model Where_Spec Where_Proofs Where_Props
  Having_Model Having_Spec Having_Proofs Having_Props Agg_Spec Reduce_Spec Group_Syntax Group_Model Group_Spec Group_Proofs Group_Props
  Inner_Syntax Inner_Model Inner_Spec Inner_Proofs Inner_Props Select_Model Select_Spec Select_Proofs Select_Props Whole_Syntax Cast_Syntax Cast_Where Cast_Spec Cast_Proofs Whole_Model Whole_Spec.
Open Scope Z_scope.

(** ** The residual condition uses only columns of the condition. *)
Lemma top_level_weaken : forall (P Q : expr -> Prop) e, (forall x, P x -> Q x) -> top_level P e -> top_level Q e.
Proof. intros P Q e W T. induction T; [apply T_and|apply T_paren|apply T_leaf]; auto. Qed.
Lemma where_cond_mentions : forall compile primary ty n e q m r q', where_cond compile primary ty e q = (m, r, q') ->
  (mentions n m -> mentions n e) /\ (forall x, r = Some x -> mentions n x -> mentions n e).
Proof.
  intros compile primary ty n. induction e; intros q m r q' H; cbn [where_cond] in H;
    try (injection H as <- <- <-; split; [auto|intros x [= <-]; auto]; fail).
  - destruct (where_cond compile primary ty e q) as [[m0 r0] q0] eqn:E. injection H as <- <- <-. destruct (IHe _ _ _ _ E) as [I1 I2].
    split; [intros M; inversion M; subst; constructor; auto|]. intros x X M. constructor. apply (I2 x X M).
  - destruct (where_cond compile primary ty e1 q) as [[m1 r1] q1] eqn:E1. destruct (where_cond compile primary ty e2 q1) as [[m2 r2] q2] eqn:E2.
    injection H as <- <- <-. destruct (IHe1 _ _ _ _ E1) as [I1 J1]. destruct (IHe2 _ _ _ _ E2) as [I2 J2].
    assert (A : mentions n (EAnd m1 m2) -> mentions n (EAnd e1 e2)) by (intros M; inversion M as [| | | |? ? O| | | | | | | | | | | | |]; subst; constructor; tauto).
    split; [exact A|]. intros x X M. destruct r1 as [x1|], r2 as [x2|]; try discriminate X; injection X as <-.
    + exact (A M).
    + constructor. left. exact (J1 x1 eq_refl M).
    + constructor. right. exact (J2 x2 eq_refl M).
  - destruct (push_op key) as [op|]; [|injection H as <- <- <-; split; [auto|intros x [= <-]; auto]].
    destruct (parse_binary compile primary e1 e2) as [[k v]|]; injection H as <- <- <-; (split; [|intros x X; try discriminate X]).
    + intros M; inversion M.
    + auto.
    + injection X as <-. auto.
  - destruct (parse_in compile primary e l) as [[k v]|]; injection H as <- <- <-; (split; [|intros x X; try discriminate X]).
    + intros M; inversion M.
    + auto.
    + injection X as <-. auto.
Qed.

Lemma operand_columns_in : forall n e, In n (operand_columns e) -> e <> ECol n /\ mentions n e.
Proof.
  intros n e I. split.
  - intros ->. exact I.
  - apply columns_mentions. unfold operand_columns in I. destruct (as_column e); [destruct I|exact I].
Qed.
Lemma boolean_no_column : forall e, boolean e -> as_column e = None.
Proof. intros e B. destruct B; reflexivity. Qed.
Lemma cond_no_column : forall e, cond e -> as_column e = None.
Proof. intros e C. destruct C; try reflexivity. apply boolean_no_column. assumption. Qed.
Lemma having_columns_in : forall n e, hcond e -> In n (having_columns e) -> exists x, operand_in x e /\ x <> ECol n /\ mentions n x.
Proof.
  intros n e C. assert (O : forall x a, In n (operand_columns x) -> (operand_in x a) -> exists y, operand_in y a /\ y <> ECol n /\ mentions n y).
  { intros x a I P. exists x. split; [exact P|]. apply operand_columns_in. exact I. }
  induction C as [a b Ca IHa Cb IHb|a b Ca IHa Cb IHb|a Ca IHa|k a b Hk Xa Xb|a b Xa Xb|a l Xa L Xl|a Xa Ba]; cbn [having_columns]; intros I;
    try (apply in_app_iff in I; destruct I as [I|I]).
  - destruct (IHa I) as (x & P & Q). exists x. split; [constructor; left; exact P|exact Q].
  - destruct (IHb I) as (x & P & Q). exists x. split; [constructor; right; exact P|exact Q].
  - destruct (IHa I) as (x & P & Q). exists x. split; [apply O_or; left; exact P|exact Q].
  - destruct (IHb I) as (x & P & Q). exists x. split; [apply O_or; right; exact P|exact Q].
  - destruct (IHa I) as (x & P & Q). exists x. split; [constructor; exact P|exact Q].
  - apply (O a _ I). constructor. left. reflexivity.
  - apply (O b _ I). constructor. right. reflexivity.
  - apply (O a _ I). constructor. left. reflexivity.
  - apply (O b _ I). constructor. right. reflexivity.
  - apply (O a _ I). constructor. reflexivity.
  - apply (O a _ I). constructor. reflexivity.
Qed.

Lemma paged_skipped : forall A offset (l : list A), match offset with Some o => skipn (Z.to_nat o) l | None => l end = skipn (skipped offset) l.
Proof. intros A [o|] l; reflexivity. Qed.

Section Whole.
Variable frepr : spec_float -> text.
Variable ident : val -> val -> bool.
Variable ext : text -> option (list val -> val).
Variable lib : text -> list val -> val.
Variable tt : text -> bool.
Hypothesis no_neg : ext (t "neg") = None.
Variable str_of : val -> text.
Variable pick : list row -> row.
Variable nested : text -> row -> val.
Variable raw : list (text * state) -> val.
Variable state_name : path -> text.
Variable other : expr -> res hcol.
Variable rematch : text -> val -> bool.
Variable leK : val -> val -> bool.
Let fn := sql_fn frepr ident ext lib.
Let value := sem tt fn.
Notation parts st := (where_parts frepr ident ext (st_where st)).

(** ** WHERE *)
Lemma where_whole : forall cfg w, plain_where tt fn w ->
  exists pred, residual frepr ident ext cfg (fst (where_parts frepr ident ext w)) = Ok pred /\
  (forall r, source_keeps frepr ident ext lib r (snd (where_parts frepr ident ext w)) && match pred with Some q => truthy (ev frepr ident ext lib r q) | None => true end
             = holds tt fn w r) /\
  (forall n, In n (residual_columns (fst (where_parts frepr ident ext w))) -> exists e, w = Some e /\ mentions n e).
Proof.
  intros cfg [e|] W.
  2: { exists None. split; [reflexivity|]. split; [reflexivity|]. intros n []. }
  destruct (W e eq_refl) as [C TL'].
  assert (TL : top_level (fun x => column_left x /\ constant_items (sem tt fn) x) e) by (eapply top_level_weaken; [|exact TL']; intros y (Ya & Yb & Yc); exact (conj Ya Yb)).
  unfold where_parts. rewrite (where_uncast _ plain_name (fun n => n) e e) by (first [left; reflexivity|apply clean_uncast; eapply top_level_weaken; [|exact TL']; intros y (Ya & Yb & Yc); exact Yc]).
  destruct (where_cond (compile frepr ident ext) plain_name (fun n => n) e []) as [[m x] q] eqn:E. cbn [fst snd].
  assert (P : residual frepr ident ext cfg x = Ok (option_map (compile frepr ident ext) x)).
  { pose proof (where_cond_spec frepr ident ext lib tt no_neg plain_name (fun n => n) (fun _ => VNone) (fun _ => VNone)) as S.
    assert (H1 : forall n, plain_name n = true -> has_bar n = false) by (intros n H; apply negb_true_iff in H; exact H).
    specialize (S H1 (fun _ _ => eq_refl) e [] C (conj (NoDup_nil _) (fun k (I : In k []) => match I with end)) TL). rewrite E in S.
    destruct S as (_ & Q & _ & _ & _ & S). destruct x as [x|]; [|reflexivity]. destruct S as [Cx _]. unfold residual.
    rewrite (cond_no_column _ Cx). reflexivity. }
  exists (option_map (compile frepr ident ext) x). split; [exact P|]. split.
  - intros r. pose proof (where_pushdown frepr ident ext lib tt no_neg plain_name (fun n => n) r r) as S.
    assert (H1 : forall n, plain_name n = true -> has_bar n = false) by (intros n H; apply negb_true_iff in H; exact H).
    specialize (S H1 (fun _ _ => eq_refl)). cbv zeta in S. specialize (S e C TL). unfold select_keeps, compile_where in S. rewrite E in S. cbn [fst snd] in S.
    unfold holds. fold fn in S. set (b := source_keeps frepr ident ext lib r (retype q) && _) in *. fold value in S |- *.
    destruct b, (truth tt (value r e)) as [[]|]; try reflexivity; destruct S as [S1 S2]; try (specialize (S1 eq_refl); congruence); specialize (S2 eq_refl); congruence.
  - intros n I. exists e. split; [reflexivity|]. destruct x as [x|]; [|destruct I]. cbn [residual_columns] in I. apply operand_columns_in in I as [_ M].
    exact (proj2 (where_cond_mentions _ _ _ n e [] m (Some x) q E) x eq_refl M).
Qed.

(** ** HAVING *)
Lemma having_whole : forall st names, plain_having st -> (forall n, In n (map fst (st_items st)) -> In n names) ->
  exists hav, match st_having st with
              | None => Ok None
              | Some e => do h <- having frepr ident ext (Some names) other e; Ok (Some h)
              end = Ok hav /\
    forall o, match hav with Some h => keeps frepr ident ext lib rematch h (fun n => field n o) | None => true end = holds tt fn (st_having st) (column o).
Proof.
  intros st names PH Inc. destruct (st_having st) as [e|] eqn:E; [|exists None; split; reflexivity].
  destruct (PH e E) as [C K].
  destruct (having_filters frepr ident ext lib tt no_neg (Some names) other rematch e C) as (h & H & F).
  { intros l [= <-] n M. apply Inc, K, M. }
  exists (Some h). rewrite H. split; [reflexivity|]. intros o. specialize (F [column o] (column o)).
  unfold holds. fold fn in F. change (fun n => field n o) with (column o). unfold filter_having in F. cbn [filter] in F. fold value in F |- *.
  destruct (keeps frepr ident ext lib rematch h (column o)), (truth tt (value (column o) e)) as [[]|]; try reflexivity; exfalso; cbn [In] in F;
    destruct F as [F1 F2]; (destruct F1 as [_ F1]; [left; reflexivity|discriminate F1]) || (destruct F2; split; auto).
Qed.

(** ** The bookkeeping of columns *)
Lemma known_used : forall st cfg n, plain_where tt fn (st_where st) -> plain_having st -> In n (known_columns frepr ident ext st cfg) -> used st n.
Proof.
  intros st cfg n PW PH I. unfold known_columns, columns_by in I. rewrite !in_app_iff in I. destruct I as [I|[I|[I|I]]].
  - left. apply in_flat_map in I as ([m e] & I & J). exists m, e. split; [exact I|]. apply columns_mentions. exact J.
  - right. right. right. destruct (g_agg cfg); [destruct I|]. apply in_flat_map in I as ([q m|e] & I & J); [destruct J|]. exists e. split; [exact I|]. exact (proj2 (operand_columns_in n e J)).
  - right. left. destruct (where_whole cfg (st_where st) PW) as (_ & _ & _ & R). exact (R n I).
  - right. right. left. destruct (st_having st) as [e|] eqn:E; [|destruct I]. destruct (PH e E) as [C _].
    destruct (having_columns_in n e C I) as (x & A & B & M). exists e, x. auto.
Qed.
Lemma item_known : forall st cfg m n e, In (m, e) (st_items st) -> mentions n e -> In n (known_columns frepr ident ext st cfg).
Proof. intros st cfg m n e I M. unfold known_columns, columns_by. apply in_app_iff. left. apply in_flat_map. exists (m, e). split; [exact I|]. apply columns_mentions. exact M. Qed.

Lemma operand_known : forall n x, x <> ECol n -> cast_column x = None -> mentions n x -> In n (operand_columns x).
Proof.
  intros n x N1 C M. assert (I := proj2 (columns_mentions n x) M). unfold operand_columns. destruct (as_column x) eqn:A; [|exact I].
  destruct x; cbn [as_column] in A; try congruence. exfalso. inversion M; subst. apply N1. reflexivity.
Qed.
Lemma operand_in_known : forall n x e, operand_in x e -> x <> ECol n -> cast_column x = None -> mentions n x -> In n (having_columns e).
Proof.
  intros n x e O N1 C M. pose proof (operand_known n x N1 C M) as K. revert O. induction e; intros O; inversion O; subst; cbn [having_columns]; rewrite ?in_app_iff;
    repeat match goal with H : _ \/ _ |- _ => destruct H end; subst; auto.
Qed.
Lemma calculated_known : forall st cfg n, calculated_with st n -> In n (known_columns frepr ident ext st cfg).
Proof.
  intros st cfg n [(m & e & I & M)|(e & x & E & O & N1 & C & M)]; [eapply item_known; eassumption|]. unfold known_columns, columns_by. rewrite !in_app_iff. right. right. right. rewrite E.
  eapply operand_in_known; eassumption.
Qed.

(** ** ORDER BY compiles *)
Lemma order_ok : forall q : select row output, (exists schema, s_schema _ _ q = Some schema /\
    ((forall it, In it (s_order _ _ q) -> exists n d, it = OCol [] n d /\ In n schema) \/
     (forall it, In it (s_order _ _ q) -> exists n d, it = OCol [] n d /\ pushed _ _ q [] n = true))) ->
  exists op, compile_order row output q = Ok op.
Proof.
  intros q (schema & Es & H). unfold compile_order.
  assert (K : forall l, (forall it, In it l -> exists n d, it = OCol [] n d) ->
     order_keys row output q l = Ok (map (fun it => match it with OCol tb n d => (n, d, pushed _ _ q tb n) | OExp _ _ d => ([], d, true) end) l)).
  { induction l as [|it l IH]; intros F; [reflexivity|]. destruct (F it (or_introl eq_refl)) as (n & d & ->). cbn [order_keys order_key bind map].
    rewrite IH by (intros i I; apply F; right; exact I). reflexivity. }
  rewrite K by (destruct H as [H|H]; intros it I; destruct (H it I) as (n & d & E & _); eauto). cbn [bind]. rewrite Es.
  destruct (_ <? _)%nat eqn:L; [|eauto].
  destruct H as [H|H].
  - assert (forallb (fun k : text * bool => memb (fst k) schema) (map fst (map (fun it => match it with OCol tb n d => (n, d, pushed _ _ q tb n) | OExp _ _ d => ([], d, true) end) (s_order _ _ q))) = true) as ->; [|eauto].
    apply forallb_forall. intros k I. rewrite map_map in I. apply in_map_iff in I as (it & <- & I). destruct (H it I) as (n & d & -> & J). apply memb_In. exact J.
  - exfalso. apply Nat.ltb_lt in L. rewrite !map_length in L.
    assert (E : forall l, (forall it, In it l -> exists n d, it = OCol [] n d /\ pushed _ _ q [] n = true) ->
      length (filter snd (map (fun it => match it with OCol tb n d => (n, d, pushed row output q tb n) | OExp _ _ d => ([], d, true) end) l)) = length l).
    { induction l as [|it l IH]; intros F; [reflexivity|]. destruct (F it (or_introl eq_refl)) as (n & d & -> & P). cbn [map filter snd]. rewrite P. cbn [length]. f_equal.
      apply IH. intros i I. apply F. right. exact I. }
    rewrite (E _ H) in L. lia.
Qed.
(** No sort of the result: every name is sorted by the source. *)
Lemma order_pushed : forall (q : select row output) o, compile_order row output q = Ok (o, []) -> forall tb n d, In (OCol tb n d) (s_order _ _ q) -> pushed _ _ q tb n = true.
Proof.
  intros q o H tb n d I. unfold compile_order in H. destruct (order_keys row output q (s_order row output q)) as [ks|] eqn:E; [|discriminate]. cbn [bind] in H.
  destruct (_ <? _)%nat eqn:L.
  { destruct (s_schema row output q); [destruct (forallb _ _)|]; discriminate H. }
  apply Nat.ltb_ge in L. rewrite !map_length in L. destruct (filter_all _ _ _ L) as [_ All]. clear H L.
  revert ks E All. induction (s_order row output q) as [|it l IH]; intros ks E All; [destruct I|]. cbn [order_keys] in E.
  destruct (order_key row output q it) as [k|] eqn:Ek; [|discriminate]. cbn [bind] in E. destruct (order_keys row output q l) as [ks'|]; [|discriminate]. injection E as <-.
  destruct I as [->|I].
  - cbn [order_key] in Ek. injection Ek as <-. exact (All _ (or_introl eq_refl)).
  - apply (IH I ks' eq_refl). intros x X. apply All. right. exact X.
Qed.
Lemma aggregates_no_limit : forall (q : select row output) k, compile_select row output q = Ok k -> has_aggregates _ _ q = true -> t_limit k = 0.
Proof.
  intros q k H A. unfold compile_select in H. destruct (compile_order row output q) as [op|]; [|discriminate]. cbn [bind] in H.
  destruct (compile_limit row output q (snd op)) as [p l] eqn:L. destruct (select_kind row output q); [|discriminate]. injection H as <-. cbn [t_limit].
  unfold compile_limit in L. rewrite A in L. rewrite !orb_true_r in L. cbn [orb] in L. destruct (_ || _); congruence.
Qed.

(** ** The items without aggregates *)
Lemma free_item : forall e, ~ uses_aggregate e -> select_item state_name e = if is_const e then IConst (const_value e) else match e with ECol n => ICol n | _ => ICalc e end.
Proof.
  intros e U. unfold select_item. destruct (is_const e); [reflexivity|].
  assert (A : as_aggregate e = None) by (destruct (as_aggregate e) as [a|] eqn:A; [destruct U; exists e, a; split; [constructor|exact A]|reflexivity]).
  assert (P : parse_aggregate [] e = []).
  { destruct (parse_aggregate [] e) as [|[q x] l] eqn:P; [reflexivity|]. exfalso.
    assert (N : not_nested e) by (intros x0 a y z b P0 A0 _ _ _; apply U; exists x0, a; split; assumption).
    assert (I : In (q, x) (parse_aggregate [] e)) by (rewrite P; left; reflexivity).
    destruct (parse_sound e [] q x I N) as (_ & Px & Ax). destruct (as_aggregate x) as [a|] eqn:B; [|exact (Ax eq_refl)]. apply U. exists x, a. split; assumption. }
  rewrite A, P. destruct e; reflexivity.
Qed.
Lemma free_value : forall e r, exact e -> ~ uses_aggregate e -> (forall v, e <> ENeg (EConst v)) ->
  exists q, gcol_of frepr ident ext (select_item state_name e) = GPlain q /\ ev frepr ident ext lib r q = value r e.
Proof.
  intros e r X U NC. rewrite (free_item e U). destruct (is_const e) eqn:C.
  - destruct (const_forms e C) as [[c ->]|[c E]]; [|destruct (NC c E)]. exists (QConst c). split; reflexivity.
  - assert (G : exists q, GPlain (compile frepr ident ext e) = GPlain q /\ ev frepr ident ext lib r q = value r e)
      by (eexists; split; [reflexivity|exact (compiled_value frepr ident ext lib tt no_neg e X r)]).
    destruct e; try exact G.
Qed.
Lemma free_config : forall st, plain_statement tt fn st ->
  exists cfg, compile_written state_name frepr ident ext (mkwritten (st_items st) (st_group st)) = Ok cfg /\
    map fst (g_schema cfg) = map fst (st_items st) /\ g_agg cfg = [] /\ forall r, plain_row frepr ident ext lib cfg r = result_row tt fn st r.
Proof.
  intros st (ND & F & G & _). rewrite Forall_forall in F.
  set (l := map (fun ne => (fst ne, select_item state_name (snd ne))) (st_items st)).
  assert (PI : forall n i, In (n, i) l -> exists e, In (n, e) (st_items st) /\ i = select_item state_name e).
  { intros n i I. apply in_map_iff in I as ([m e] & E & I). injection E as <- <-. exists e. split; [exact I|reflexivity]. }
  pose proof (compile_items_ok frepr ident ext (st_group st) l [] []) as C. cbn [app] in C.
  assert (Names : map fst l = map fst (st_items st)) by (unfold l; rewrite map_map; reflexivity).
  eexists. split; [apply C|cbn [g_schema g_agg]; split; [|split]].
  - rewrite Names. exact ND.
  - rewrite G. constructor.
  - apply Forall_forall. intros [n i] I. apply PI in I as (e & I & ->). destruct (F _ I) as (X & U & NC). cbn [snd] in *.
    rewrite (free_item e U). destruct (is_const e); [exact Logic.I|]. destruct e; try exact X. exact Logic.I.
  - rewrite schema_of_fst. exact Names.
  - destruct (aggs_of frepr ident ext (st_group st) l) as [|[n a] r] eqn:E; [reflexivity|]. exfalso.
    assert (I : In (n, a) (aggs_of frepr ident ext (st_group st) l)) by (rewrite E; left; reflexivity).
    apply in_flat_map in I as ([m i] & I & J). apply PI in I as (e & I & ->). destruct (F _ I) as (X & U & NC). cbn [fst snd] in *.
    rewrite (free_item e U) in J. destruct (is_const e); [destruct J|]. destruct e; destruct J.
  - intros r. unfold plain_row, result_row, schema_of, l. cbn [g_schema]. rewrite !map_map. cbn [fst snd]. apply map_ext_in. intros [n e] I.
    destruct (F _ I) as (X & U & NC). cbn [fst snd] in *. destruct (free_value e r X U NC) as (q & -> & ->). reflexivity.
Qed.

(** ** LIMIT and OFFSET *)
Lemma whole_limit : forall out agg grp dis (q : select row output) src, collapses q = false -> plain_limit (s_limit _ _ q) ->
  run_select row output val leK (fun n r => r n) field out agg grp dis q src =
  do l <- run_select row output val leK (fun n r => r n) field out agg grp dis (with_limit q None None) src; Ok (paged (s_limit _ _ q) (s_offset _ _ q) l).
Proof.
  intros out agg grp dis q src NC PL.
  assert (E : q = with_limit q (s_limit _ _ q) (s_offset _ _ q)) by (destruct q; reflexivity). rewrite E at 1. unfold paged.
  destruct (s_limit row output q) as [n|].
  - rewrite limit_page; [|exact (PL n eq_refl)|congruence]. destruct (run_select _ _ _ _ _ _ _ _ _ _ _ src) as [l|]; [|reflexivity]. cbn [bind]. unfold page. rewrite paged_skipped. reflexivity.
  - destruct (s_offset row output q) as [o|].
    + apply offset_only.
    + destruct (run_select _ _ _ _ _ _ _ _ _ _ _ src); reflexivity.
Qed.
Lemma keep_filter : forall A (f : A -> bool) p l, keep p (filter f l) = filter (fun x => f x && match p with Some g => g x | None => true end) l.
Proof.
  intros A f [g|] l; cbn [keep].
  - induction l as [|x l IH]; [reflexivity|]. cbn [filter]. destruct (f x); cbn [filter andb]; [destruct (g x)|]; rewrite IH; reflexivity.
  - apply filter_ext. intros x. rewrite andb_true_r. reflexivity.
Qed.
Lemma keep_as : forall A p (f : A -> bool) l, (forall x, match p with Some g => g x | None => true end = f x) -> keep p l = filter f l.
Proof.
  intros A p f l H. transitivity (keep p (filter (fun _ => true) l)).
  - f_equal. clear. induction l as [|x l IH]; [reflexivity|]. cbn [filter]. rewrite <- IH. reflexivity.
  - rewrite keep_filter. apply filter_ext. intros x. apply H.
Qed.

(** ** The items with aggregates *)
Lemma uses_item : forall e, uses_aggregate e -> not_nested e -> (forall v, e <> ENeg (EConst v)) -> aggregates (select_item state_name e) <> [].
Proof.
  intros e (x & a & P & A) N NC. unfold select_item. destruct (is_const e) eqn:C.
  { exfalso. destruct (const_forms e C) as [[c ->]|[c E]]; [inversion P; subst; discriminate A|destruct (NC c E)]. }
  assert (G : aggregates (match as_aggregate e with Some a => IAgg a | None => match parse_aggregate [] e with
    | [] => ICalc e | l => IExpr (mark state_name (fun p => existsb (path_eqb p) (map fst l)) [] e) (found state_name e) end end) <> []).
  { destruct (as_aggregate e) as [b|] eqn:B; [discriminate|]. destruct (parse_aggregate [] e) as [|h l] eqn:Q; [destruct (parse_complete e [] Q x a P A)|].
    cbn [aggregates]. intros Z. apply map_eq_nil in Z. apply (f_equal (map fst)) in Z. rewrite found_names in Z by exact N. rewrite Q in Z. discriminate Z. }
  destruct e; exact G.
Qed.
Hypothesis injective : forall p q, state_name p = state_name q -> p = q.
Lemma grouped_config : forall w, plain_written w -> (forall p alias e, In (alias, e) (w_items w) -> ~ mentions (state_name p) e) ->
  exists cfg, compile_written state_name frepr ident ext w = Ok cfg /\
    map fst (g_schema cfg) = map fst (w_items w) /\ g_agg cfg <> [] /\
    forall n e, In (n, e) (w_items w) -> uses_aggregate e -> In n (map fst (g_agg cfg)).
Proof.
  intros w PW FR. destruct (written_plain state_name injective w PW FR) as (ND & GK & PI & _). destruct PW as (_ & _ & PX & AG). rewrite Forall_forall in PX.
  pose proof (compile_items_ok frepr ident ext (w_group w) (q_items (query_of state_name w)) [] []) as C. cbn [app] in C. specialize (C ND GK PI).
  eexists. split; [exact C|]. cbn [g_schema g_agg].
  assert (U : forall n e, In (n, e) (w_items w) -> uses_aggregate e -> In n (map fst (aggs_of frepr ident ext (w_group w) (q_items (query_of state_name w))))).
  { intros n e I U. destruct (PX _ I) as (X & N & NC & _). cbn [snd] in *. pose proof (uses_item e U N NC) as A.
    destruct (acol_of frepr ident ext (w_group w) (select_item state_name e)) as [|a r] eqn:E.
    { destruct (select_item state_name e); try discriminate E; destruct (A eq_refl). }
    apply in_map_iff. exists (n, a). split; [reflexivity|]. unfold aggs_of. apply in_flat_map. exists (n, select_item state_name e). split.
    - cbn [query_of q_items]. apply in_map_iff. exists (n, e). split; [reflexivity|exact I].
    - cbn [fst snd]. rewrite E. left. reflexivity. }
  split; [|split; [|exact U]].
  - rewrite schema_of_fst. cbn [query_of q_items]. rewrite map_map. reflexivity.
  - apply Exists_exists in AG as ([n e] & I & A). cbn [snd] in A. specialize (U n e I A). intros Z. rewrite Z in U. destruct U.
Qed.
End Whole.

(** ** Groups of rearranged rows *)
Lemma filter_perm : forall A (f : A -> bool) l m, Permutation l m -> Permutation (filter f l) (filter f m).
Proof.
  intros A f l m P. induction P as [|x l m P IH|x y l|l m k P1 I1 P2 I2]; cbn [filter].
  - constructor.
  - destruct (f x); [constructor|]; exact IH.
  - destruct (f x), (f y); try reflexivity. constructor.
  - etransitivity; eassumption.
Qed.
Lemma nonnull_perm : forall l m, Permutation l m -> Permutation (nonnull l) (nonnull m).
Proof. intros l m P. apply filter_perm. exact P. Qed.
Lemma sums_perm : forall l m, Permutation l m -> forall z, sums l z -> sums m z.
Proof.
  intros l m P. induction P as [|x l m P IH|x y l|l m k P1 I1 P2 I2]; intros z S; auto.
  - inversion S; subst; [apply sums_null|apply sums_cons]; auto.
  - inversion S as [|? ? S1|? n ? ? D S1]; subst.
    + inversion S1; subst; [apply sums_null, sums_null; assumption|apply sums_cons; [assumption|apply sums_null; assumption]].
    + inversion S1 as [|? ? S2|? n' ? z' D' S2]; subst.
      * apply sums_null, sums_cons; assumption.
      * replace (n + (n' + z')) with (n' + (n + z')) by lia. apply sums_cons; [exact D'|]. apply sums_cons; assumption.
Qed.
Lemma summable_perm : forall f d l m, Permutation l m -> summable f d l -> summable f d m.
Proof.
  intros f d l m P S. pose proof (nonnull_perm l m P) as N.
  assert (E : nonnull l <> [] -> nonnull m <> []) by (intros H Z; rewrite Z in N; apply H; apply Permutation_nil; symmetry; exact N).
  assert (I : forall x, In x (nonnull m) -> In x (nonnull l)) by (intros x X; eapply Permutation_in; [symmetry; exact N|exact X]).
  destruct f, d; cbn [summable] in *; auto.
  - destruct S as [S1 (z & S2)]. split; [auto|]. exists z. eapply sums_perm; eassumption.
  - intros x y X Y. apply S; auto.
  - intros x y X Y. apply S; auto.
  - destruct S as [S1 (z & v & S2 & S3)]. split; [intros X; apply S1; eapply Permutation_in; [symmetry; exact P|exact X]|]. exists z, v.
    split; [eapply sums_perm; eassumption|]. rewrite <- (Permutation_length N). exact S3.
Qed.

Section Keyed.
Variable K V : Type.
Variable same : K -> K -> bool.
Variable f : V -> K.
Lemma keyed_members : forall rows k, members same (map (fun r => (f r, r)) rows) k = filter (fun x => same k (f x)) rows.
Proof. intros rows k. unfold members. induction rows as [|x rows IH]; [reflexivity|]. cbn [map filter fst]. destruct (same k (f x)); cbn [map snd]; rewrite IH; reflexivity. Qed.
Lemma keyed_firsts : forall rows seen, exists firsts, sublist firsts rows /\ map f firsts = keys_from same seen (map (fun r => (f r, r)) rows).
Proof.
  induction rows as [|x rows IH]; intros seen; [exists []; split; [constructor|reflexivity]|]. cbn [map keys_from]. destruct (existsb (fun k' => same k' (f x)) seen).
  - destruct (IH seen) as (l & S & E). exists l. split; [constructor; exact S|exact E].
  - destruct (IH (seen ++ [f x])) as (l & S & E). exists (x :: l). split; [constructor; exact S|]. cbn [map]. rewrite E. reflexivity.
Qed.
End Keyed.
Lemma sublist_in : forall A (a b : list A) x, sublist a b -> In x a -> In x b.
Proof. intros A a b x S. induction S as [|y a b S IH|y a b S IH]; intros I; auto; [right; auto|]. destruct I as [->|I]; [left; reflexivity|right; auto]. Qed.

(** Comparing rows whose keys are equivalent. *)
Lemma lex_equivalent : forall A B K (leK : K -> K -> bool), total_preorder leK -> forall (l : list ((A -> K) * (B -> K) * bool)) x y x' y',
  (forall f g d, In (f, g, d) l -> leK (f x) (g x') = true /\ leK (g x') (f x) = true /\ leK (f y) (g y') = true /\ leK (g y') (f y) = true) ->
  lex_le leK (map (fun k => (fst (fst k), snd k)) l) x y = lex_le leK (map (fun k => (snd (fst k), snd k)) l) x' y'.
Proof.
  intros A B K leK [_ T] l x y x' y'. induction l as [|[[f g] d] l IH]; intros H; [reflexivity|]. cbn [map fst snd lex_le].
  rewrite IH by (intros f0 g0 d0 I; apply (H f0 g0 d0); right; exact I). destruct (H f g d (or_introl eq_refl)) as (A1 & A2 & A3 & A4).
  assert (E : forall p q p' q', leK p p' = true -> leK p' p = true -> leK q q' = true -> leK q' q = true -> leK p q = leK p' q').
  { intros p q p' q' H1 H2 H3 H4. destruct (leK p q) eqn:E1, (leK p' q') eqn:E2; try reflexivity; exfalso.
    - rewrite (T p' p q' H2 (T p q q' E1 H3)) in E2. discriminate E2.
    - rewrite (T p p' q H1 (T p' q' q E2 H4)) in E1. discriminate E1. }
  destruct d.
  - rewrite (E (f y) (f x) (g y') (g x')), (E (f x) (f y) (g x') (g y')) by assumption. reflexivity.
  - rewrite (E (f y) (f x) (g y') (g x')), (E (f x) (f y) (g x') (g y')) by assumption. reflexivity.
Qed.
Lemma sorted_related : forall A B (R : A -> B -> Prop) (P : A -> A -> Prop) (Q : B -> B -> Prop),
  (forall a b c d, R a b -> R c d -> P a c -> Q b d) -> forall l m, Forall2 R l m -> StronglySorted P l -> StronglySorted Q m.
Proof.
  intros A B R P Q H l m F. induction F as [|a b l m H1 F IH]; intros S; [constructor|]. apply StronglySorted_inv in S. destruct S as [S1 S2]. constructor; [apply IH, S1|].
  clear IH S1. induction F as [|c d l m H2 F IH]; [constructor|]. inversion S2; subst. constructor; [eapply H; eassumption|apply IH; assumption].
Qed.

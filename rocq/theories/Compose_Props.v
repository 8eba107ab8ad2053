(** C242: whole queries whose SELECTs may have joins, aggregates over joins, and window functions. *)
From Coq Require Import SpecFloat Permutation Sorting.Sorted.
From Verif Require Import Base PyVal Str_Model Str_Proofs Utils_Model Calc_Model Expr_Syntax Expr_Model Expr_Spec Expr_Proofs Expr_Props Where_Spec Having_Model Having_Spec Having_Proofs Reduce_Spec
  Group_Syntax Group_Model Group_Spec Group_Proofs Group_Props Inner_Syntax Inner_Model Inner_Spec Inner_Proofs Inner_Props Select_Model Select_Spec Select_Props
  Joins_Syntax Joins_Spec Joins_Model Joins_Props Joinsel_Syntax Joinsel_Spec Joinsel_Model Joinsel_Props Joinsel_Cases Joingrp_Syntax Joingrp_Spec Joingrp_Model Joingrp_Props Joingrp_Cases Joingrp_Accept Joingrp_Comma
  Whole_Syntax Cast_Syntax Whole_Model Whole_Spec Whole_Proofs Whole_Props Collapse_Model Collapse_Spec Collapse_Props Joinsel_Unread Joincol_Model Joincol_Spec Joincol_Props Alias_Model Alias_Spec Alias_Proofs Alias_Props Union_Model
  Winq_Syntax Winq_Model Winq_Spec Winq_Props Winsel_Syntax Winsel_Model Winsel_Spec Winsel_Props
  Full_Syntax Full_Proofs Compose_Syntax Compose_Spec Compose_Model Compose_Proofs Compose_Windows.

Section Acceptable.
Variable frepr : spec_float -> text.
Variable ident : val -> val -> bool.
Variable ext : text -> option (list val -> val).
Variable lib : text -> list val -> val.
Variable tt : text -> bool.
Variable known : text -> bool.                         (* the names of the window functions *)
Variable reserved : text -> Prop.                      (* the names of the states of aggregates *)
Variable leK : val -> val -> bool.
Variable cmpv : cmp -> val -> val -> bool.
Notation fn := (sql_fn frepr ident ext lib).

(** The rows of the only source; without FROM, one row without columns. *)
Definition only_source (sh : list shape) (ls : list rows) (l : rows) : Prop :=
  match sh, ls with [], [] => l = [[]] | [_], [x] => l = x | _, _ => False end.
(** The alias: of nothing it is "--". *)
Definition alias_of (sh : list shape) : option text := match sh with [] => Some (t "--") | s :: _ => sh_alias s end.
Definition is_aliased (s : shape) : bool := match sh_alias s with Some _ => true | None => false end.
(** Whatever the order in which the rows kept by WHERE come, the window functions can take their values, and no ties are left by their ORDER BY. *)
Definition fits (st : wstatement) (l : rows) : Prop :=
  forall rs, Permutation (filter (holds tt fn (ws_where st)) (map column l)) rs -> rows_fit frepr ident ext lib tt leK sql_frame (ws_query st) rs /\ no_ties frepr ident ext lib tt leK (ws_query st) rs.
(** The sources are those named in FROM and the joins. *)
Definition named_sources (sh : list shape) (q : Joins_Syntax.query) : Prop := map sh_name sh = qfrom q ++ map jtab (qjoins q).
Definition left_joins (q : Joins_Syntax.query) : Prop := forall j, In j (qjoins q) -> jside j = SLeft /\ jkind j = KNone.
Definition inner_joins (p : text) (q : Joins_Syntax.query) : Prop :=
  qjoins q <> [] /\ (forall j a, In j (qjoins q) -> In a (jon j) -> strict_atom a) /\ (forall j, In j (qjoins q) -> jkind j = KInner /\ jside j = SNone /\ linked p j = true).
(** What C234 asks of a SELECT over joins. *)
Definition plain_joined (p : text) (aliased : bool) (st : jselect) : Prop :=
  p <> [] /\ one_table p (j_query st) /\ NoDup (map fst (j_items st)) /\ all_selected (map jtab (qjoins (j_query st))) st /\
  reads_known st (p :: map jtab (qjoins (j_query st))) /\ orderable p st /\ (forall a, In a (qwhere (j_query st)) -> upright a) /\ well_named p aliased st /\ positive_limit st.
(** Of LEFT JOINs with LIMIT: C235. *)
Definition late_page (p : text) (d : db) (st : jselect) : Prop :=
  j_limit st = None \/ (exists a, In a (qwhere (j_query st)) /\ on_first p a = false) \/
  (exists c desc tb, In (c, desc) (j_order st) /\ ctab c = Some tb /\ tb <> p) \/ single_match cmpv p d (qjoins (j_query st)).
(** What C238 asks of a SELECT with aggregates over joins. *)
Definition plain_grouped (p : text) (d : db) (g : jgroup) : Prop :=
  one_table p (g_from g) /\ (forall j, In j (qjoins (g_from g)) -> read_by (g_rest g) (jtab j)) /\ reads_known_tables p g /\ (forall a, In a (qwhere (g_from g)) -> upright a) /\
  grouped_over p g /\ (forall n alias e, reserved n -> In (alias, e) (st_items (g_rest g)) -> ~ mentions n e) /\
  summable_groups tt fn equal_keys (g_rest g) (joined cmpv p d (g_from g)).

(** What C234 and C239 ask when the tables are in FROM: FROM a, b, ... *)
Definition plain_comma (p : text) (ts : list text) (aliased : bool) (st : jselect) : Prop :=
  p <> [] /\ comma_joins p ts (j_query st) /\ NoDup (map fst (j_items st)) /\ all_selected ts st /\ reads_known st (p :: ts) /\ orderable p st /\
  (forall a, In a (qwhere (j_query st)) -> upright a) /\ well_named p aliased st /\ positive_limit st.
Definition comma_group (p : text) (ts : list text) (d : db) (g : jgroup) : Prop :=
  comma_joins p ts (g_from g) /\ (forall tb, In tb ts -> read_by (g_rest g) tb) /\ reads_only p ts g /\ (forall a, In a (qwhere (g_from g)) -> upright a) /\
  grouped_over p g /\ (forall n alias e, reserved n -> In (alias, e) (st_items (g_rest g)) -> ~ mentions n e) /\
  summable_groups tt fn equal_keys (g_rest g) (joined cmpv p d (g_from g)).
(** What C248 asks of LEFT JOINs of which the last ones are not read. *)
Definition plain_unread (p : text) (aliased : bool) (d : db) (js js2 : list join) (w : list atom) items order limit offset : Prop :=
  let st js := JSelect (Query [p] js w) items order limit offset in
  p <> [] /\ one_table p (Query [p] (js ++ js2) w) /\ NoDup (map fst items) /\ left_joins (Query [p] (js ++ js2) w) /\ (forall j, In j js2 -> unread_table (jtab j) (st (js ++ js2))) /\ single_match cmpv p d js2 /\
  all_selected (map jtab js) (st js) /\ reads_known (st js) (p :: map jtab js) /\ orderable p (st js) /\ (forall a, In a w -> upright a) /\ well_named p aliased (st js) /\ positive_limit (st js) /\
  late_page p d (st js).
(** What C249 and C250 ask of DISTINCT, or GROUP BY without aggregates, over joins. *)
Definition plain_collapsed (p : text) (ts : list text) (d : db) (distinct : bool) (g : jgroup) : Prop :=
  joined_from p ts (g_from g) /\ (forall tb, In tb ts -> read_by (g_rest g) tb) /\ reads_only p ts g /\ (forall a, In a (qwhere (g_from g)) -> upright a) /\
  (if distinct then distinct_over p g else bare_group_over p g) /\
  proper_keys tt fn equal_keys (if distinct then item_values tt fn (g_rest g) else bare_key tt fn (g_rest g)) (g_rest g) (joined cmpv p d (g_from g)).

(** The SELECTs for which the claim is made, given what they see of their sources and their rows. *)
Inductive core_acceptable : core -> list shape -> list rows -> Prop :=
| A_one d star st sh ls l : only_source sh ls l -> (star = true -> exists s cols, sh = [s] /\ sh_columns s = Some cols) ->
    Alias_Spec.acceptable tt fn equal_keys reserved (alias_of sh) d (star_written star sh st) (map column l) -> core_acceptable (One d star st) sh ls
| A_windowed st s l : sh_alias s = None -> windowed_statement tt fn known st -> fits st l -> core_acceptable (Windowed st) [s] [l]
| A_windowed_alias st s a l : sh_alias s = Some a -> a <> [] -> windowed_statement tt fn known (wbare st) ->
    Forall (fun nd => exists i, In (fst nd, i) (wq_items (ws_query st)) /\ Winsel_Spec.direct i) (ws_order st) -> plain_limit (ws_limit st) -> fits st l -> core_acceptable (Windowed st) [s] [l]
| A_left st s r ls : named_sources (s :: r) (j_query st) -> plain_joined (sh_name s) (is_aliased s) st -> left_joins (j_query st) ->
    late_page (sh_name s) (source_rows (s :: r) ls) st -> core_acceptable (Joined st) (s :: r) ls
| A_inner st s r ls : named_sources (s :: r) (j_query st) -> plain_joined (sh_name s) (is_aliased s) st -> inner_joins (sh_name s) (j_query st) -> core_acceptable (Joined st) (s :: r) ls
| A_left_grouped g s r ls : named_sources (s :: r) (g_from g) -> plain_grouped (sh_name s) (source_rows (s :: r) ls) g -> left_joins (g_from g) -> core_acceptable (Grouped g) (s :: r) ls
| A_inner_grouped g s r ls : named_sources (s :: r) (g_from g) -> plain_grouped (sh_name s) (source_rows (s :: r) ls) g -> inner_joins (sh_name s) (g_from g) ->
    core_acceptable (Grouped g) (s :: r) ls
| A_comma st s r ls : plain_comma (sh_name s) (map sh_name r) (is_aliased s) st -> core_acceptable (Joined st) (s :: r) ls
| A_comma_grouped g s r ls : comma_group (sh_name s) (map sh_name r) (source_rows (s :: r) ls) g -> core_acceptable (Grouped g) (s :: r) ls
| A_unread js js2 w items order limit offset s r ls : map sh_name r = map jtab (js ++ js2) ->
    plain_unread (sh_name s) (is_aliased s) (source_rows (s :: r) ls) js js2 w items order limit offset ->
    core_acceptable (Joined (JSelect (Query [sh_name s] (js ++ js2) w) items order limit offset)) (s :: r) ls
| A_collapsed d g s r ls : plain_collapsed (sh_name s) (map sh_name r) (source_rows (s :: r) ls) d g -> core_acceptable (Collapsed d g) (s :: r) ls.
End Acceptable.

Section Props.
Variable frepr : spec_float -> text.
Variable ident : val -> val -> bool.
Variable ext : text -> option (list val -> val).
Variable lib : text -> list val -> val.
Variable tt : text -> bool.
Variable known : text -> bool.
Variable str_of : val -> text.
Variable primary : option text.
Variable pick pick1 : list Group_Model.row -> Group_Model.row.
Variable nested : text -> Group_Model.row -> val.
Variable raw : list (text * state) -> val.
Variable state_name : path -> text.
Variable other : expr -> res Having_Model.hcol.
Variable rematch : text -> val -> bool.
Variable leK : val -> val -> bool.
Variable wfn : text -> list (list val * list val) -> nat -> val.
Variable cmpv : cmp -> val -> val -> bool.
Variable fuel : nat.
Hypothesis NN : ext (t "neg") = None.
Hypothesis TK : total_preorder leK.
Hypothesis EQ : forall a b, pyeq a b = true -> leK a b = true /\ leK b a = true.
Hypothesis HP : forall rs, rs <> [] -> In (pick rs) rs.
Hypothesis HP1 : forall rs, rs <> [] -> In (pick1 rs) rs.
Hypothesis INJ : forall p q, state_name p = state_name q -> p = q.
Hypothesis NR : null_rejecting cmpv.
Hypothesis SY : eq_symmetric cmpv.
Notation fn := (sql_fn frepr ident ext lib).
Notation answers := (core_answers tt fn str_of leK equal_keys wfn cmpv).
Notation acceptable := (core_acceptable frepr ident ext lib tt known (fun n => exists p, n = state_name p) leK cmpv).
Notation select := (run_core frepr ident ext lib known str_of primary pick pick1 nested raw state_name other rematch leK wfn cmpv fuel).

Lemma only_rows_source : forall sh ls l, only_source sh ls l -> only_rows ls = map column l.
Proof. intros [|s [|s2 r]] [|x [|y m]] l H; cbn [only_source] in H; try contradiction; subst l; reflexivity. Qed.
Lemma star_names : forall star sh st, map fst (st_items (star_written star sh st)) = core_names (One false star st) sh.
Proof.
  intros star sh st. unfold star_written, with_items. cbn [st_items core_names]. rewrite map_app. f_equal. destruct star; [|reflexivity]. destruct sh as [|s r]; [reflexivity|].
  destruct (sh_columns s) as [l|]; [|reflexivity]. rewrite map_map. apply map_id.
Qed.
Lemma grouped_names : forall st table out, grouped_result tt fn str_of leK equal_keys st table out -> forall o, In o out -> map fst o = map fst (st_items st).
Proof.
  intros st table out (rs & grows & sorted & _ & GR & PS & _ & _ & ->) o I. apply paged_incl in I.
  eapply Permutation_in in I; [|symmetry; exact PS]. apply filter_In in I. destruct I as [I _]. destruct (Forall2_In_r _ _ _ _ _ _ GR I) as (k & _ & r & _ & F). eapply Forall2_names; exact F.
Qed.
Lemma joined_names : forall p d st out, Joinsel_Spec.answers cmpv leK p d st out -> forall o, In o out -> map fst o = map fst (j_items st).
Proof.
  intros p d st out (es & _ & ->) o I. apply paged_incl in I. apply in_map_iff in I as (e & <- & _). unfold Joinsel_Spec.result_row. rewrite map_map. reflexivity.
Qed.
Lemma collapsed_names : forall ck st table out, collapsed_result tt fn leK equal_keys ck st table out -> forall o, In o out -> map fst o = map fst (st_items st).
Proof.
  intros ck st table out (rs & grows & sorted & _ & GR & PS & _ & _ & ->) o I. apply paged_incl in I.
  eapply Permutation_in in I; [|symmetry; exact PS]. apply filter_In in I. destruct I as [I _]. destruct (Forall2_In_r _ _ _ _ _ _ GR I) as (k & _ & F). eapply Forall2_names; exact F.
Qed.
Lemma NoDup_app_l : forall A (a b : list A), NoDup (a ++ b) -> NoDup a.
Proof. intros A a b. induction a as [|x a IH]; intros H; [apply NoDup_nil|]. inversion H as [|? ? N D]; subst. apply NoDup_cons; [intros I; apply N; apply in_or_app; left; exact I|exact (IH D)]. Qed.

Lemma columns_ok : forall c sh ls out, acceptable c sh ls -> answers c sh ls out -> regular_core c -> NoDup (core_names c sh) /\ forall o, In o out -> map fst o = core_names c sh.
Proof.
  intros c sh ls out A An R. destruct A as [d star st sh ls l S St A|st s l Al W F|st s a l Al NE W O PL F|st s r ls N P L Pg|st s r ls N P In_|g s r ls N P L|g s r ls N P In_|st s r ls P|g s r ls P|js js2 w items order limit offset s r ls Sn P|d g s r ls P]; cbn [core_answers] in An.
  - destruct An as (l' & _ & An). change (core_names (One d star st) sh) with (core_names (One false star st) sh). rewrite <- star_names. split; [exact (acceptable_nodup _ _ _ _ _ _ _ _ A)|exact (answers_names _ _ _ _ _ _ _ _ _ An)].
  - destruct An as (l' & _ & _ & Nm). destruct W as ((_ & ND & _) & _). cbn [core_names]. split; [exact (NoDup_app_l _ _ _ ND)|exact (Nm R)].
  - destruct An as (l' & _ & _ & Nm). destruct W as ((_ & ND & _) & _). cbn [core_names]. split; [exact (NoDup_app_l _ _ _ ND)|exact (Nm R)].
  - destruct An as (s' & r' & _ & An). split; [apply P|exact (joined_names _ _ _ _ An)].
  - destruct An as (s' & r' & _ & An). split; [apply P|exact (joined_names _ _ _ _ An)].
  - destruct An as (s' & r' & _ & An). destruct P as (_ & _ & _ & _ & (_ & (ND & _) & _) & _). split; [exact ND|exact (grouped_names _ _ _ An)].
  - destruct An as (s' & r' & _ & An). destruct P as (_ & _ & _ & _ & (_ & (ND & _) & _) & _). split; [exact ND|exact (grouped_names _ _ _ An)].
  - destruct An as (s' & r' & _ & An). split; [apply P|exact (joined_names _ _ _ _ An)].
  - destruct An as (s' & r' & _ & An). destruct P as (_ & _ & _ & _ & (_ & (ND & _) & _) & _). split; [exact ND|exact (grouped_names _ _ _ An)].
  - destruct An as (s' & r' & _ & An). destruct P as (_ & _ & ND & _). split; [exact ND|exact (joined_names _ _ _ _ An)].
  - destruct An as (s' & r' & _ & An). assert (ND : NoDup (map fst (st_items (g_rest g)))) by (destruct P as (_ & _ & _ & _ & B & _); destruct d; destruct B as (B & _); apply B).
    split; [exact ND|exact (collapsed_names _ _ _ _ An)].
Qed.

Lemma select_ok : forall c sh ls, acceptable c sh ls -> exists out, select c sh ls = Ok out /\ answers c sh ls out.
Proof.
  intros c sh ls A. destruct A as [d star st sh ls l S St A|st s l Al W F|st s a l Al NE W O PL F|st s r ls N P L Pg|st s r ls N P In_|g s r ls N P L|g s r ls N P In_|st s r ls P|g s r ls P|js js2 w items order limit offset s r ls Sn P|d g s r ls P]; cbn [run_core core_answers].
  - destruct (select_answers frepr ident ext lib tt str_of primary pick pick1 nested raw state_name other rematch leK NN TK EQ HP HP1 INJ _ _ _ _ A) as (out & Ro & Re).
    assert (SL : starless star sh = true). { unfold starless. destruct star; [|reflexivity]. destruct (St eq_refl) as (s & cols & -> & ->). reflexivity. }
    rewrite SL, (only_rows_source _ _ _ S). exists out. split; [exact Ro|]. exists l. split; [|exact Re]. destruct sh as [|s [|s2 r]]; destruct ls as [|x [|y m]]; cbn [only_source] in S; try contradiction; exact S.
  - destruct (windowed_select frepr ident ext lib tt str_of leK nested wfn known other rematch NN TK st (map column l) W F) as (out & Ro & Re).
    cbn [first_alias]. rewrite Al. exists out. split; [exact Ro|]. exists l. split; [reflexivity|]. split; [exact Re|]. intros D. destruct W as (PQ & _).
    exact (waliased_names frepr ident ext lib known str_of nested other rematch leK wfn None st (map column l) out PQ D Ro).
  - destruct (windowed_aliased frepr ident ext lib tt known str_of nested other rematch leK wfn NN TK a st (map column l) NE W O PL F) as (out & Ro & Re).
    cbn [first_alias]. rewrite Al. exists out. split; [exact Ro|]. exists l. split; [reflexivity|]. split; [exact Re|]. intros D. destruct W as (PQ & _).
    exact (waliased_names frepr ident ext lib known str_of nested other rematch leK wfn (Some a) st (map column l) out PQ D Ro).
  - destruct P as (Np & One_ & ND & Sel & RK & Or & Up & WN & PL). destruct (left_select_accepted cmpv leK (source_rows (s :: r) ls) (sh_name s) fuel (is_aliased s) st Np One_ L Sel RK Or) as (out & Ro).
    change (has_name (s :: r)) with (is_aliased s). rewrite Ro. exists out. split; [reflexivity|]. exists s, r. split; [reflexivity|].
    exact (left_select cmpv leK _ _ NR SY TK fuel (is_aliased s) st out One_ L Sel Up WN PL Pg Ro).
  - destruct P as (Np & One_ & ND & Sel & RK & Or & Up & WN & PL). destruct In_ as (Ne & Strict & Inn).
    destruct (inner_select_accepted cmpv (source_rows (s :: r) ls) (sh_name s) NR SY leK fuel (is_aliased s) st Np One_ Ne Strict Inn Sel RK Or) as (out & Ro).
    change (has_name (s :: r)) with (is_aliased s). rewrite Ro. exists out. split; [reflexivity|]. exists s, r. split; [reflexivity|].
    exact (inner_select cmpv leK _ _ NR SY TK fuel (is_aliased s) st out One_ Ne Strict Inn Sel Up WN PL Ro).
  - destruct P as (One_ & Rd & RK & Up & GO & FR0 & SG).
    assert (FR : forall m alias e, In (alias, e) (st_items (g_rest g)) -> ~ mentions (state_name m) e) by (intros m al e I; exact (FR0 _ al e (ex_intro _ m eq_refl) I)).
    destruct (left_grouped_accepted cmpv frepr ident ext lib str_of pick nested raw state_name other rematch leK (source_rows (s :: r) ls) (sh_name s) tt fuel (is_aliased s) g SY NN TK EQ HP INJ NR One_ L Rd RK Up GO FR SG) as (out & Ro).
    change (has_name (s :: r)) with (is_aliased s). rewrite Ro. exists out. split; [reflexivity|]. exists s, r. split; [reflexivity|].
    exact (left_grouped cmpv frepr ident ext lib tt str_of pick nested raw state_name other rematch leK _ _ NR SY NN TK EQ HP INJ fuel (is_aliased s) g out One_ L Rd Up GO FR SG Ro).
  - destruct P as (One_ & Rd & RK & Up & GO & FR0 & SG). destruct In_ as (Ne & Strict & Inn).
    assert (FR : forall m alias e, In (alias, e) (st_items (g_rest g)) -> ~ mentions (state_name m) e) by (intros m al e I; exact (FR0 _ al e (ex_intro _ m eq_refl) I)).
    destruct (inner_grouped_accepted cmpv (source_rows (s :: r) ls) (sh_name s) NR SY frepr ident ext lib str_of pick nested raw state_name other rematch leK tt fuel (is_aliased s) g NN TK EQ HP INJ One_ Ne Strict Inn Rd RK Up GO FR SG) as (out & Ro).
    change (has_name (s :: r)) with (is_aliased s). rewrite Ro. exists out. split; [reflexivity|]. exists s, r. split; [reflexivity|].
    exact (inner_grouped cmpv frepr ident ext lib tt str_of pick nested raw state_name other rematch leK _ _ NR SY NN TK EQ HP INJ fuel (is_aliased s) g out One_ Ne Strict Inn Rd Up GO FR SG Ro).
  - destruct P as (Np & Cj & ND & Sel & RK & Or & Up & WN & PL).
    destruct (comma_select_accepted cmpv (source_rows (s :: r) ls) leK (sh_name s) fuel (is_aliased s) st (map sh_name r) Np Cj Sel RK Or) as (out & Ro).
    change (has_name (s :: r)) with (is_aliased s). rewrite Ro. exists out. split; [reflexivity|]. exists s, r. split; [reflexivity|]. destruct Cj as (Hf & Hj & Ne & Ti & _ & Qu & Ex0).
    exact (comma_select cmpv leK _ _ NR SY TK fuel (is_aliased s) st (map sh_name r) out Hf Hj Ne Ti Qu Ex0 Sel Up WN PL Ro).
  - destruct P as (Cj & Rd & RK & Up & GO & FR0 & SG).
    assert (FR : forall m alias e, In (alias, e) (st_items (g_rest g)) -> ~ mentions (state_name m) e) by (intros m al e I; exact (FR0 _ al e (ex_intro _ m eq_refl) I)).
    destruct (comma_grouped_accepted cmpv (source_rows (s :: r) ls) (sh_name s) frepr ident ext lib str_of pick nested raw state_name other rematch leK tt fuel (is_aliased s) g (map sh_name r)
      NR SY NN TK EQ HP INJ Cj Rd RK Up GO FR SG) as (out & Ro).
    change (has_name (s :: r)) with (is_aliased s). rewrite Ro. exists out. split; [reflexivity|]. exists s, r. split; [reflexivity|]. destruct Cj as (Hf & Hj & Ne & Ti & _ & Qu & Ex0).
    exact (comma_grouped cmpv frepr ident ext lib tt str_of pick nested raw state_name other rematch leK _ _ NR SY NN TK EQ HP INJ fuel (is_aliased s) g (map sh_name r) out Hf Hj Ne Ti Qu Ex0 Rd Up GO FR SG Ro).
  - destruct P as (Np & One_ & ND & L & U & Sm & Sel & RK & Or & Up & WN & PL & Pg).
    destruct (unread_left_select cmpv leK (source_rows (s :: r) ls) (sh_name s) NR SY TK fuel (is_aliased s) w items order limit offset js js2 Np One_ L U Sm Sel RK Or Up WN PL Pg) as (out & Ro & An).
    change (has_name (s :: r)) with (is_aliased s). rewrite Ro. exists out. split; [reflexivity|]. exists s, r. split; [reflexivity|]. exact An.
  - destruct P as (Fr & Rd & RK & Up & B & PK). change (has_name (s :: r)) with (is_aliased s). destruct d.
    + destruct (joined_distinct cmpv frepr ident ext lib tt primary pick pick1 nested state_name other rematch leK (source_rows (s :: r) ls) (sh_name s) NR SY NN TK EQ HP HP1
        fuel (is_aliased s) g (map sh_name r) Fr Rd RK Up B PK) as (out & Ro & An & _).
      rewrite Ro. exists out. split; [reflexivity|]. exists s, r. split; [reflexivity|]. exact An.
    + destruct (joined_bare_group cmpv frepr ident ext lib tt primary pick pick1 nested state_name other rematch leK (source_rows (s :: r) ls) (sh_name s) NR SY NN TK EQ HP HP1
        fuel (is_aliased s) g (map sh_name r) Fr Rd RK Up B PK) as (out & Ro & An).
      rewrite Ro. exists out. split; [reflexivity|]. exists s, r. split; [reflexivity|]. exact An.
Qed.
(** Without a star only the names and aliases of the sources matter. *)
Lemma shape_names : forall columns from, map sh_name (map (shape_by columns) from) = map sh_name (shapes from).
Proof. intros columns from. unfold shapes. rewrite !map_map. apply map_ext. intros [n a|q a]; reflexivity. Qed.
Lemma shape_alias : forall columns from, first_alias (map (shape_by columns) from) = first_alias (shapes from).
Proof. intros columns [|[n a|q a] r]; reflexivity. Qed.
Lemma select_shapes : forall c from ls, ~ is_star c -> select c (map (shape_by schema) from) ls = select c (shapes from) ls.
Proof.
  intros c from ls NS. destruct c as [d star st|st|st|g|d g]; cbn [run_core].
  - destruct star; [destruct (NS Logic.I)|]. rewrite shape_alias. reflexivity.
  - rewrite shape_alias. reflexivity.
  - unfold has_name, source_rows. rewrite shape_alias, shape_names. reflexivity.
  - unfold has_name, source_rows. rewrite shape_alias, shape_names. reflexivity.
  - unfold has_name, source_rows. rewrite shape_alias, shape_names. reflexivity.
Qed.
End Props.

(** The temporary tables have different names, are empty before the statement is executed, and are not named in it. *)
Definition new_tables (temp : nat -> text) (ctes : list (text * query)) (q : query) (tables : text -> rows) : Prop :=
  (forall i j, temp i = temp j -> i = j) /\ (forall j, tables (memory_table (temp j)) = []) /\
  (forall j n q', q' = q \/ In q' (map snd ctes) -> reads n q' -> n <> memory_table (temp j)) /\
  (forall j name, In name (map fst ctes) -> name <> temp j).
(** No input (its table and what follows) of a query named by WITH begins with the name given to it. *)
Definition no_prefix (temp : nat -> text) (pk : text) (ctes : list (text * query)) : Prop :=
  forall name q x, In (name, q) ctes ->
    (forall n, reads n q -> n ++ t "::" ++ pk <> memory_table name ++ x) /\
    (forall j, memory_table (temp j) ++ t "::" ++ pk <> memory_table name ++ x) /\ t "--.--::" ++ pk <> memory_table name ++ x.

(** C242.  A statement made of acceptable SELECTs - plain, with aggregates, with window functions, over joins, with aggregates over joins - by subqueries in FROM and
    in joins, UNION ALL and WITH, is accepted, and returns what it says. *)
Theorem composed_query_answers : forall frepr ident ext lib tt known str_of primary pick pick1 nested raw state_name other rematch leK wfn cmpv fuel temp pk,
  ext (t "neg") = None -> total_preorder leK -> (forall a b, pyeq a b = true -> leK a b = true /\ leK b a = true) ->
  (forall rs, rs <> [] -> In (pick rs) rs) -> (forall rs, rs <> [] -> In (pick1 rs) rs) -> (forall p q, state_name p = state_name q -> p = q) ->
  null_rejecting cmpv -> eq_symmetric cmpv ->
  let fn := sql_fn frepr ident ext lib in
  let answers := core_answers tt fn str_of leK equal_keys wfn cmpv in
  let acceptable := core_acceptable frepr ident ext lib tt known (fun n => exists p, n = state_name p) leK cmpv in
  let select := run_core frepr ident ext lib known str_of primary pick pick1 nested raw state_name other rematch leK wfn cmpv fuel in
  forall ctes q tables, new_tables temp ctes q tables -> no_prefix temp pk ctes ->
  NoDup (map fst ctes) -> (forall name, In name (map fst ctes) -> tables (memory_table name) = []) ->
  with_proper answers acceptable tables ctes q ->
  exists out, execute select temp pk ctes q tables = Ok out /\ with_means answers tables ctes q out.
Proof.
  intros fr id ext lib tt kn so pr pick pick1 nested raw nm other rm leK wfn cmpv fuel temp pk NN TK EQ HP HP1 INJ NR SY fn answers acceptable select ctes q tables (TI & TE & TR & TN) NP ND Em P.
  apply (statement_executes answers acceptable); try assumption.
  - apply columns_ok.
  - intros c sh ls A. apply (select_ok fr id ext lib tt kn so pr pick pick1 nested raw nm other rm leK wfn cmpv fuel); assumption.
  - apply select_shapes.
  - intros name q' I. split; [|split].
    + intros n R j. apply (TR j n q'); [right; apply in_map_iff; exists (name, q'); split; [reflexivity|exact I]|exact R].
    + split; [|split]; [intros n R (x & E); destruct (NP name q' x I) as (H & _ & _); exact (H n R E)|intros j (x & E); destruct (NP name q' x I) as (_ & H & _); exact (H j E)|].
      intros (x & E). destruct (NP name q' x I) as (_ & _ & H). exact (H E).
    + intros j. apply (TN j). apply in_map_iff. exists (name, q'). split; [reflexivity|exact I].
  - intros n R j. apply (TR j n q); [left; reflexivity|exact R].
  - intros j _. apply TE.
Qed.
Print Assumptions composed_query_answers.

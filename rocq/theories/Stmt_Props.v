(** Theorems about statements: which are refused, EXPLAIN, SET, SHOW, USE (C10, C101, C116-C124). *)
From Verif Require Import Base PyVal Agg_Model Utils_Spec Utils_Model Utils_Proofs Config_Model Config_Spec Config_Props Config_Sets Config_Session Str_Model Str_Proofs Json_Proofs Stmt_Syntax Stmt_Spec Stmt_Model Stmt_Proofs.
Open Scope nat_scope.

Section Stmt.
Variables Q C D : Type.
Variable m : machine Q C D.
Notation world := (world C D).

(** C116: a statement of any other kind, or with a syntax error, is refused and nothing at all changes. *)
Theorem other_statements_refused : forall n s w p, m_parse m s = Ok p -> ~ understood (m_lower m) p -> exists e, statement m (S n) s w = (w, Some e).
Proof.
  intros n s w p P N. unfold statement. cbn [submit]. set (r := start _ _ _). cbn [compile]. rewrite P. cbn [bind].
  destruct p as [q|q into|q into|q into|k a|u|i|].
  - exfalso. apply N. constructor.
  - destruct (m_compile m q w) as [c|e]; cbn [bind]; [|eauto]. destruct into as [[x|]|]; [exfalso; apply N; constructor|eauto|exfalso; apply N; constructor].
  - destruct (m_compile m q w) as [c|e]; cbn [bind]; [|eauto]. destruct into; [eauto|exfalso; apply N; constructor].
  - destruct (m_compile m q w) as [c|e]; cbn [bind]; [|eauto]. destruct into; [eauto|exfalso; apply N; constructor].
  - cbv zeta. destruct a as [x|x|].
    + destruct (text_eqb (m_lower m k) (t "set")) eqn:E; [exfalso; apply N; apply k_set_text; apply text_eqb_spec; exact E|eauto].
    + destruct (text_eqb (m_lower m k) (t "explain")) eqn:E1; [exfalso; apply N; apply k_explain; apply text_eqb_spec; exact E1|].
      destruct (text_eqb (m_lower m k) (t "set")) eqn:E2; [exfalso; apply N; apply k_set; apply text_eqb_spec; exact E2|].
      destruct (text_eqb (m_lower m k) (t "execute")) eqn:E3; [exfalso; apply N; apply k_execute; apply text_eqb_spec; exact E3|].
      destruct (text_eqb (m_lower m k) (t "show")) eqn:E4; [exfalso; apply N; apply k_show; apply text_eqb_spec; exact E4|eauto].
    + eauto.
  - exfalso. apply N. constructor.
  - exfalso. apply N. constructor.
  - eauto.
Qed.
Theorem syntax_errors_refused : forall n s w e, m_parse m s = Err e -> statement m (S n) s w = (w, Some e).
Proof. intros n s w e P. unfold statement. cbn [submit]. set (r := start _ _ _). cbn [compile]. rewrite P. reflexivity. Qed.
(** C116: the statements of the language are not refused: a query whose parts compile is started and run. *)
Theorem queries_accepted : forall n s w p q c, m_parse m s = Ok p -> query_of p q -> m_compile m q w = Ok c ->
  statement m (S n) s w = match m_qstart m (m_verbose m w) c w with (w', None) => match m_qrun m c w' with (w'', None) => (w'', None) | other => other end | other => other end.
Proof.
  intros n s w p q c P K E. unfold statement. cbn [submit].
  assert (compile m (S n) s w = Ok (TQuery c)) as -> by (cbn [compile]; rewrite P; cbn [bind]; destruct K; rewrite E; reflexivity).
  cbn [start]. destruct (m_qstart m (m_verbose m w) c w) as [w' [e|]]; reflexivity.
Qed.
Theorem deletions_accepted : forall n s w q c, m_parse m s = Ok (PDelete q) -> m_compile m q w = Ok c ->
  statement m (S n) s w = match m_dstart m (m_verbose m w) c w with (w', None) => match m_drun m c w' with (w'', None) => (w'', None) | other => other end | other => other end.
Proof.
  intros n s w q c P E. unfold statement. cbn [submit].
  assert (compile m (S n) s w = Ok (TDelete c)) as -> by (cbn [compile]; rewrite P; cbn [bind]; rewrite E; reflexivity).
  cbn [start]. destruct (m_dstart m (m_verbose m w) c w) as [w' [e|]]; reflexivity.
Qed.

(** C117: EXPLAIN of a query or an insertion prints its plan and then does what the statement does with @verbose on (its compilation does not
    depend on what was printed). *)
Definition verbose_on : machine Q C D :=
  {| m_parse := m_parse m; m_sp := m_sp m; m_isdigit := m_isdigit m; m_lower := m_lower m; m_json := m_json m; m_view := m_view m; m_default := m_default m;
     m_tag := m_tag m; m_importable := m_importable m; m_exists := m_exists m; m_me := m_me m; m_verbose := fun _ => true; m_compile := m_compile m;
     m_qstart := m_qstart m; m_dstart := m_dstart m; m_istart := m_istart m; m_fstart := m_fstart m;
     m_qrun := m_qrun m; m_drun := m_drun m; m_irun := m_irun m; m_frun := m_frun m |}.
Theorem explain_executes : forall n s s' k w p q c, m_parse m s = Ok (PCommand k (ArgConst s')) -> m_lower m k = t "explain" ->
  m_parse m s' = Ok p -> query_of p q -> m_compile m q w = Ok c -> m_compile m q (print (OPlan c) w) = Ok c ->
  statement m (S (S n)) s w = statement verbose_on (S n) s' (print (OPlan c) w).
Proof.
  intros n s s' k w p q c P K P' Kq E E'.
  assert (X : statement verbose_on (S n) s' (print (OPlan c) w) =
    match m_qstart m true c (print (OPlan c) w) with (w', None) => match m_qrun m c w' with (w'', None) => (w'', None) | other => other end | other => other end).
  { unfold statement. cbn [submit].
    assert (compile verbose_on (S n) s' (print (OPlan c) w) = Ok (TQuery c)) as -> by (cbn [compile]; cbn [verbose_on m_parse m_compile]; rewrite P'; cbn [bind]; destruct Kq; rewrite E'; reflexivity).
    cbn [start verbose_on m_verbose m_qstart m_qrun]. destruct (m_qstart m true c (print (OPlan c) w)) as [w' [e|]]; reflexivity. }
  rewrite X. unfold statement. cbn [submit].
  assert (compile m (S (S n)) s w = Ok (TExplain (TQuery c))) as ->.
  { cbn [compile]. rewrite P. cbn [bind]. cbv zeta. rewrite K, text_eqb_refl. rewrite P'. cbn [bind]. destruct Kq; rewrite E; reflexivity. }
  cbn [start]. destruct (m_qstart m true c (print (OPlan c) w)) as [w' [e|]]; reflexivity.
Qed.

(** C118: EXPLAIN of any other statement fails, and nothing changes. *)
Theorem explain_other_refuted : forall n s s' k w p, m_parse m s = Ok (PCommand k (ArgConst s')) -> m_lower m k = t "explain" ->
  m_parse m s' = Ok p -> (forall q, ~ query_of p q) -> exists e, statement m (S (S n)) s w = (w, Some e).
Proof.
  intros n s s' k w p P K P' N. unfold statement. cbn [submit].
  destruct (compile m (S (S n)) s w) as [i|e] eqn:E; [|eauto].
  assert (exists j, i = TExplain j /\ compile m (S n) s' w = Ok j) as (j & -> & Ej).
  { remember (S n) as f. cbn [compile] in E. rewrite P in E. cbn [bind] in E. cbv zeta in E. rewrite K, text_eqb_refl in E.
    destruct (compile m f s' w) as [j|]; [|discriminate]. cbn [bind] in E. assert (TExplain j = i) by congruence. eauto. }
  destruct j as [c|c|c x|j|kk v|f|kk|u]; cbn [start]; eauto. exfalso.
  cbn [compile] in Ej. rewrite P' in Ej. cbn [bind] in Ej. destruct p as [q|q into|q into|q into|k' a|u|i|].
  - destruct (m_compile m q w); discriminate.
  - destruct (m_compile m q w); [|discriminate]. destruct into as [[x|]|]; try discriminate. apply (N q). constructor.
  - destruct (m_compile m q w); [|discriminate]. destruct into; try discriminate. apply (N q). constructor.
  - destruct (m_compile m q w); [|discriminate]. destruct into; try discriminate. apply (N q). constructor.
  - cbv zeta in Ej. destruct a as [x|x|]; [destruct (text_eqb _ _); [destruct (set_parts _ _)|]; discriminate| |discriminate].
    destruct (text_eqb _ (t "explain")); [destruct (compile m n x w); discriminate|]. destruct (text_eqb _ (t "set")); [destruct (set_parts _ _); discriminate|].
    destruct (text_eqb _ (t "execute")); [discriminate|]. destruct (text_eqb _ (t "show")); discriminate.
  - discriminate.
  - destruct (set_parts _ _); discriminate.
  - discriminate.
Qed.

(** ** SET *)
Definition ascii (s : text) : Prop := Forall (fun c => c < 128)%N s.
(** The tests on characters are right on ASCII. *)
Definition sane : Prop :=
  (forall c, (c < 128)%N -> (m_isdigit m c = true <-> digit c)) /\ (forall s, ascii s -> m_lower m s = map lower_letter s).

Lemma set_submitted : forall n s w p item k v, m_parse m s = Ok p -> sets (m_lower m) p item -> item = k ++ 61%N :: v -> ~ In 61%N k ->
  submit m (S n) s w = set_start m (submit m n) (strip (m_sp m) k) (strip (m_sp m) v) w.
Proof.
  intros n s w p item k v P S -> N. cbn [submit].
  assert (compile m (Datatypes.S n) s w = Ok (TSet (strip (m_sp m) k) (strip (m_sp m) v))) as ->; [|reflexivity].
  cbn [compile]. rewrite P. cbn [bind].
  remember (k ++ 61%N :: v) as item eqn:Ei. destruct S as [s0|kw s0 Kw|kw s0 Kw]; cbv zeta; try rewrite Kw.
  - rewrite Ei, set_parts_spec by exact N. reflexivity.
  - rewrite text_eqb_refl, Ei, set_parts_spec by exact N. reflexivity.
  - change (text_eqb (t "set") (t "explain")) with false. cbn iota. rewrite text_eqb_refl, Ei, set_parts_spec by exact N. reflexivity.
Qed.
Lemma strip_trimmed : forall sp x, trimmed sp x -> strip sp x = x.
Proof. intros sp x T. rewrite <- (app_nil_r x) at 1. apply (trimmed_strip sp x [] []); auto. Qed.
(** The statement SET key = value, with any white space around the two. *)
Definition set_statement (s key value : text) : Prop :=
  exists p b1 b2 b3 b4, m_parse m s = Ok p /\ sets (m_lower m) p ((b1 ++ key ++ b2) ++ 61%N :: (b3 ++ value ++ b4)) /\
    Forall (fun c => m_sp m c = true) b1 /\ Forall (fun c => m_sp m c = true) b2 /\ Forall (fun c => m_sp m c = true) b3 /\ Forall (fun c => m_sp m c = true) b4 /\
    ~ In 61%N (b1 ++ key ++ b2) /\ trimmed (m_sp m) key /\ trimmed (m_sp m) value.
Lemma set_statement_submitted : forall n s key value w, set_statement s key value -> submit m (S n) s w = set_start m (submit m n) key value w.
Proof.
  intros n s key value w (p & b1 & b2 & b3 & b4 & P & St & B1 & B2 & B3 & B4 & N & Tk & Tv).
  rewrite (set_submitted n s w p _ (b1 ++ key ++ b2) (b3 ++ value ++ b4) P St eq_refl N). rewrite !trimmed_strip by auto. reflexivity.
Qed.
Lemma set_statement_value : forall s key value, set_statement s key value -> strip (m_sp m) value = value.
Proof. intros s key value (p & b1 & b2 & b3 & b4 & _ & _ & _ & _ & _ & _ & _ & _ & Tv). apply strip_trimmed. exact Tv. Qed.
Lemma set_statement_trimmed : forall s key value, set_statement s key value -> trimmed (m_sp m) value.
Proof. intros s key value (p & b1 & b2 & b3 & b4 & _ & _ & _ & _ & _ & _ & _ & _ & Tv). exact Tv. Qed.

(** Everything but the variables of the executor, or but the global ones, is as before. *)
Definition same_but_env (w w' : world) : Prop := genv w' = genv w /\ confs w' = confs w /\ data w' = data w /\ shown w' = shown w.
Definition same_but_genv (w w' : world) : Prop := env w' = env w /\ confs w' = confs w /\ data w' = data w /\ shown w' = shown w.
Lemma dict_set_assigned : forall V x (v : V) d, assigned x v d (dict_set x v d).
Proof. intros V x v d y. apply assoc_dict_set. Qed.

(** C10, C119: SET @x = literal gives the variable the value denoted, in the executor's own scope, and changes nothing else. *)
Theorem set_variable : forall n s x value l w, sane -> set_statement s x value -> ordinary x -> ascii value -> set_denotes (m_sp m) value l ->
  exists w', statement m (S n) s w = (w', None) /\ assigned x (val_of_lit l) (env w) (env w') /\ same_but_env w w'.
Proof.
  intros n s x value l w [Hd Hl] St O A Dn. unfold statement. rewrite (set_statement_submitted n s x value w St). unfold set_start. cbv zeta.
  rewrite (set_statement_value _ _ _ St), (ordinary_target x O).
  rewrite (set_value_denotes (m_sp m) (m_isdigit m) (m_lower m) Hd Hl value l A (set_statement_trimmed _ _ _ St) Dn).
  eexists. split; [reflexivity|]. split; [apply dict_set_assigned|repeat split].
Qed.
(** C119: SET GLOBAL @x = literal sets the global variable only. *)
Theorem set_global_variable : forall n s g b x value l w, sane -> map lower_letter g = t "global" -> Forall (fun c => blank c = true) b -> trimmed blank x ->
  set_statement s (g ++ b ++ x) value -> ordinary x -> ascii value -> set_denotes (m_sp m) value l ->
  exists w', statement m (S n) s w = (w', None) /\ assigned x (val_of_lit l) (genv w) (genv w') /\ same_but_genv w w'.
Proof.
  intros n s g b x value l w [Hd Hl] G B Tx St O A Dn. unfold statement. rewrite (set_statement_submitted n s _ value w St). unfold set_start. cbv zeta.
  rewrite (set_statement_value _ _ _ St), (global_target g b x G B Tx O).
  rewrite (set_value_denotes (m_sp m) (m_isdigit m) (m_lower m) Hd Hl value l A (set_statement_trimmed _ _ _ St) Dn).
  eexists. split; [reflexivity|]. split; [apply dict_set_assigned|repeat split].
Qed.
(** C10: any other value that does not begin with a quote is an expression: what SELECT value INTO @x does, SET does. *)
Theorem set_expression : forall n s x value w w', sane -> set_statement s x value -> ordinary x -> value <> [] -> ascii value -> ~ starts_quoted value ->
  (forall l, ~ set_denotes (m_sp m) value l) ->
  statement m n (t "select " ++ value ++ t " into " ++ x) w = (w', None) -> statement m (S n) s w = (w', None).
Proof.
  intros n s x value w w' [Hd Hl] St O Nv A NQ Nd E. unfold statement in *. rewrite (set_statement_submitted n s x value w St). unfold set_start. cbv zeta.
  rewrite (set_statement_value _ _ _ St), (ordinary_target x O).
  rewrite (set_value_other (m_sp m) (m_isdigit m) (m_lower m) Hd Hl value Nv A (set_statement_trimmed _ _ _ St) NQ Nd).
  destruct O as (name & X & _). destruct x as [|c x']; [destruct X as [X|[rest X]]; discriminate|].
  assert (c = 64%N) as -> by (destruct X as [X|[rest X]]; injection X; auto). change (64 =? 64)%N with true. cbn iota.
  destruct (submit m n _ w) as [[w1 q] [e|]]; [discriminate|exact E].
Qed.
(** C10: and it is refused when that SELECT is. *)
Theorem set_expression_refused : forall n s x value w w1 q e, sane -> set_statement s x value -> ordinary x -> value <> [] -> ascii value -> ~ starts_quoted value ->
  (forall l, ~ set_denotes (m_sp m) value l) ->
  submit m n (t "select " ++ value ++ t " into " ++ x) w = (w1, q, Some e) -> statement m (S n) s w = (w1, Some ValueError).
Proof.
  intros n s x value w w1 q e [Hd Hl] St O Nv A NQ Nd E. unfold statement in *. rewrite (set_statement_submitted n s x value w St). unfold set_start. cbv zeta.
  rewrite (set_statement_value _ _ _ St), (ordinary_target x O).
  rewrite (set_value_other (m_sp m) (m_isdigit m) (m_lower m) Hd Hl value Nv A (set_statement_trimmed _ _ _ St) NQ Nd).
  destruct O as (name & X & _). destruct x as [|c x']; [destruct X as [X|[rest X]]; discriminate|].
  assert (c = 64%N) as -> by (destruct X as [X|[rest X]]; injection X; auto). change (64 =? 64)%N with true. cbn iota.
  rewrite E. reflexivity.
Qed.
(** C120: SET GLOBAL @x = expression is the same as SET @x = expression: the global variable is not set. *)
Theorem set_global_expression_refuted : forall n s g b x value w w', sane -> map lower_letter g = t "global" -> Forall (fun c => blank c = true) b -> trimmed blank x ->
  set_statement s (g ++ b ++ x) value -> ordinary x -> value <> [] -> ascii value -> ~ starts_quoted value -> (forall l, ~ set_denotes (m_sp m) value l) ->
  statement m n (t "select " ++ value ++ t " into " ++ x) w = (w', None) -> statement m (S n) s w = (w', None).
Proof.
  intros n s g b x value w w' [Hd Hl] G B Tx St O Nv A NQ Nd E. unfold statement in *. rewrite (set_statement_submitted n s _ value w St). unfold set_start. cbv zeta.
  rewrite (set_statement_value _ _ _ St), (global_target g b x G B Tx O).
  rewrite (set_value_other (m_sp m) (m_isdigit m) (m_lower m) Hd Hl value Nv A (set_statement_trimmed _ _ _ St) NQ Nd).
  destruct O as (name & X & _). destruct x as [|c x']; [destruct X as [X|[rest X]]; discriminate|].
  assert (c = 64%N) as -> by (destruct X as [X|[rest X]]; injection X; auto). change (64 =? 64)%N with true. cbn iota.
  destruct (submit m n _ w) as [[w1 q] [e|]]; [discriminate|exact E].
Qed.
(** C120: a value that begins with a quote is never evaluated, whatever follows. *)
Theorem set_quoted_expression_refuted : forall n s x value w, set_statement s x value -> ordinary x -> starts_quoted value ->
  exists y w', statement m (S n) s w = (w', None) /\ assigned x (VStr y) (env w) (env w') /\ same_but_env w w'.
Proof.
  intros n s x value w St O SQ. unfold statement. rewrite (set_statement_submitted n s x value w St). unfold set_start. cbv zeta.
  rewrite (set_statement_value _ _ _ St), (ordinary_target x O). destruct (set_value_quoted (m_sp m) (m_isdigit m) (m_lower m) value SQ) as (y & ->).
  exists y. eexists. split; [reflexivity|]. split; [apply dict_set_assigned|repeat split].
Qed.
(** C120: no variable whose name begins with @config, or is that of a section, can be set: no variable changes. *)
Theorem set_reserved_refuted : forall n s x value w, set_statement s x value -> (exists r, x = t "@config" ++ r) \/ (exists name, x = t "@" ++ name /\ In name reserved) ->
  env (fst (statement m (S n) s w)) = env w /\ genv (fst (statement m (S n) s w)) = genv w.
Proof.
  intros n s x value w St X. assert (exists k, set_target x = (false, TConf k)) as (k & T).
  { destruct X as [[r ->]|(name & -> & I)]; [apply config_target|apply reserved_target; exact I]. }
  unfold statement. rewrite (set_statement_submitted n s x value w St). unfold set_start. cbv zeta. rewrite T.
  destruct (set_value _ _ _ _) as [v|e]; [|split; reflexivity]. destruct (set_config _ _ _ _ _ _) as [tr [u|e]]; split; reflexivity.
Qed.
(** C120: a variable whose name, written without @, begins with global (in any case) is not set by SET: the executor's variables stay as they are. *)
Theorem set_global_prefix_refuted : forall n s g r value l w, sane -> map lower_letter g = t "global" ->
  set_statement s (g ++ r) value -> ascii value -> set_denotes (m_sp m) value l -> env (fst (statement m (S n) s w)) = env w.
Proof.
  intros n s g r value l w [Hd Hl] G St A Dn. unfold statement. rewrite (set_statement_submitted n s _ value w St). unfold set_start. cbv zeta.
  assert (L : length g = 6) by (rewrite <- (map_length lower_letter), G; reflexivity).
  assert (X : exists tg, set_target (g ++ r) = (true, tg)).
  { rewrite set_target_route. destruct (lower_global g L r) as [-> _]. change (map lower1 g) with (map lower_letter g). rewrite G, text_eqb_refl. eexists. reflexivity. }
  destruct X as (tg & ->). rewrite (set_statement_value _ _ _ St).
  rewrite (set_value_denotes (m_sp m) (m_isdigit m) (m_lower m) Hd Hl value l A (set_statement_trimmed _ _ _ St) Dn).
  destruct tg as [k|k]; [|reflexivity]. destruct (set_config _ _ _ _ _ _) as [tr [u|e]]; reflexivity.
Qed.
(** C101: a signed decimal number is not a literal for SET ... *)
Lemma signed_decimal_no_literal : forall sp ip fp, digits ip -> digits fp -> (forall l, ~ set_denotes sp (45%N :: ip ++ 46%N :: fp) l) /\ ~ starts_quoted (45%N :: ip ++ 46%N :: fp).
Proof.
  intros sp ip fp Hi Hf. split; [|intros (q & r & E & Hq); injection E as <- _; lia].
  intros l Dn. remember (45%N :: ip ++ 46%N :: fp) as s eqn:E.
  assert (Dot : In 46%N s) by (subst; right; apply in_or_app; right; left; reflexivity).
  destruct Dn as [q s Hq _ _|q w1 s w2 Hq _ _ _|ds [_ Hd]|ds [_ Hd]|s K|s K|s K|ip' fp' [Hn Hi'] Hf'].
  - injection E as -> _. lia.
  - injection E as -> _. lia.
  - subst ds. inversion Hd as [|? ? X]. unfold digit in X. lia.
  - injection E as ->. apply (digits_no_dot _ Hd). apply in_or_app. right. left. reflexivity.
  - subst s. cbn in K. discriminate.
  - subst s. cbn in K. discriminate.
  - subst s. cbn in K. discriminate.
  - destruct ip' as [|z ip']; [congruence|]. injection E as -> _. inversion Hi' as [|? ? X]. unfold digit in X. lia.
Qed.
(** ... so that a variable gets it by SELECT -1.5 INTO @x ... *)
Theorem set_signed_decimal_partial : forall n s x ip fp w w', sane -> set_statement s x (45%N :: ip ++ 46%N :: fp) -> ordinary x -> digits ip -> digits fp ->
  statement m n (t "select " ++ (45%N :: ip ++ 46%N :: fp) ++ t " into " ++ x) w = (w', None) -> statement m (S n) s w = (w', None).
Proof.
  intros n s x ip fp w w' Sn St O Hi Hf E. destruct (signed_decimal_no_literal (m_sp m) ip fp Hi Hf) as [N1 N2].
  apply (set_expression n s x _ w w' Sn St O); auto; [discriminate|].
  destruct Hi as [_ Hi]. destruct Hf as [_ Hf]. constructor; [lia|]. apply Forall_app. split; [eapply Forall_impl; [|exact Hi]; apply digit_lt|]. constructor; [lia|].
  eapply Forall_impl; [|exact Hf]. apply digit_lt.
Qed.
(** ... and a configuration key cannot be given such a value. *)
Theorem set_config_decimal_refuted : forall n s x ip fp w, sane -> set_statement s x (45%N :: ip ++ 46%N :: fp) -> (exists r, x = t "@config" ++ r) \/ (exists name, x = t "@" ++ name /\ In name reserved) ->
  digits ip -> digits fp -> statement m (S n) s w = (w, Some ValueError).
Proof.
  intros n s x ip fp w [Hd Hl] St X Hi Hf. assert (exists k, set_target x = (false, TConf k)) as (k & T).
  { destruct X as [[r ->]|(name & -> & I)]; [apply config_target|apply reserved_target; exact I]. }
  destruct (signed_decimal_no_literal (m_sp m) ip fp Hi Hf) as [N1 N2].
  unfold statement. rewrite (set_statement_submitted n s x _ w St). unfold set_start. cbv zeta. rewrite T, (set_statement_value _ _ _ St).
  rewrite (set_value_other (m_sp m) (m_isdigit m) (m_lower m) Hd Hl); auto; [discriminate| |exact (set_statement_trimmed _ _ _ St)].
  destruct Hi as [_ Hi]. destruct Hf as [_ Hf]. constructor; [lia|]. apply Forall_app. split; [eapply Forall_impl; [|exact Hi]; apply digit_lt|]. constructor; [lia|].
  eapply Forall_impl; [|exact Hf]. apply digit_lt.
Qed.

(** ** SHOW *)
Definition cfg (w : world) : res conf := read_config (m_default m) (confs w) (m_me m).
(** A database with a name and a driver, and its row: name, driver, the other settings, the views (an empty text when there are none). *)
Definition shown_as (e : cval) (row : list cval) : Prop :=
  exists d name driver views other, e = CDict d /\ row = [name; driver; CDict other; views] /\
    assoc (t "name") d = Some name /\ assoc (t "driver") d = Some driver /\
    match assoc (t "virtual_views") d with Some v => views = if truthy v then v else CStr [] | None => views = CStr [] end /\
    (forall k, assoc k other = if mem k [t "name"; t "driver"; t "virtual_views"] then None else assoc k d).
Lemma show_database_row : forall e row, shown_as e row -> exists other', show_database e = Ok [nth 0 row CNull; nth 1 row CNull; CDict other'; nth 3 row CNull] /\
  exists other, nth 2 row CNull = CDict other /\ forall k, assoc k other' = assoc k other.
Proof.
  intros e row (d & name & driver & views & other & -> & -> & N & Dr & V & O). cbn [show_database nth]. rewrite assoc_del.
  change (text_eqb (t "name") (t "virtual_views")) with false. cbn iota. rewrite N. rewrite !assoc_del. change (text_eqb (t "driver") (t "name")) with false. change (text_eqb (t "driver") (t "virtual_views")) with false. cbn iota. rewrite Dr.
  eexists. split.
  - assert ((if truthy match assoc (t "virtual_views") d with Some v => v | None => CNull end then match assoc (t "virtual_views") d with Some v => v | None => CNull end else CStr []) = views) as ->; [|reflexivity].
    destruct (assoc (t "virtual_views") d); rewrite V; reflexivity.
  - exists other. split; [reflexivity|]. intro k. rewrite O, !assoc_del. cbn [mem existsb].
    destruct (text_eqb k (t "driver")); [rewrite orb_true_r; reflexivity|]. destruct (text_eqb k (t "name")); [reflexivity|]. destruct (text_eqb k (t "virtual_views")); reflexivity.
Qed.
(** A table printed is one with these fields, one row for each database, in order. The settings may be printed in any order. *)
Definition same_row (a b : list cval) : Prop :=
  exists x y o o' z, a = [x; y; CDict o; z] /\ b = [x; y; CDict o'; z] /\ forall k, assoc k o = assoc k o'.
Lemma get_length : forall d fuel tr i, length (fst (Config_Model.get d fuel tr i)) = length tr.
Proof.
  intros d. induction fuel as [|fuel IH]; intros tr i; [reflexivity|]. cbn [Config_Model.get]. destruct (nth_error tr i) as [nd|]; [|reflexivity]. destruct i; [reflexivity|].
  destruct (cache nd); [reflexivity|]. specialize (IH tr (parent nd)). destruct (Config_Model.get d fuel tr (parent nd)) as [tr' [pc|e]]; cbn [fst] in *; [|exact IH].
  destruct (do c1 <- merge_config d pc; merge_config c1 (own nd)); cbn [fst]; [rewrite set_nth_length|]; exact IH.
Qed.
Lemma get_again : forall d i tr tr' c, Config_Model.get d (S i) tr i = (tr', Ok c) -> snd (Config_Model.get d (S i) tr' i) = Ok c.
Proof.
  intros d i tr tr' c E. cbn [Config_Model.get] in *. destruct (nth_error tr i) as [nd|] eqn:N; [|discriminate]. destruct i as [|i].
  - injection E as <- <-. rewrite N. reflexivity.
  - destruct (cache nd) as [c0|] eqn:Ca; [injection E as <- <-; rewrite N, Ca; reflexivity|].
    pose proof (get_length d (S i) tr (parent nd)) as L. destruct (Config_Model.get d (S i) tr (parent nd)) as [tr1 [pc|e]]; [|discriminate]. cbn [fst] in L.
    destruct (do c1 <- merge_config d pc; merge_config c1 (own nd)) as [c2|e]; [|discriminate]. injection E as <- <-. rewrite nth_set_nth, Nat.eqb_refl.
    destruct (nth_error tr1 (S i)) as [nd1|] eqn:N1; [reflexivity|]. exfalso. apply nth_error_None in N1. assert (nth_error tr (S i) <> None) as X by congruence. apply nth_error_Some in X. lia.
Qed.
Lemma show_submitted : forall n s k key w, m_parse m s = Ok (PCommand k (ArgConst key)) -> m_lower m k = t "show" ->
  statement m (S n) s w = show m key w.
Proof.
  intros n s k key w P K. unfold statement. cbn [submit].
  assert (compile m (S n) s w = Ok (TShow key)) as ->.
  { cbn [compile]. rewrite P. cbn [bind]. cbv zeta. rewrite K. reflexivity. }
  cbn [start]. destruct (show m key w) as [w' [e|]]; reflexivity.
Qed.
(** C121: SHOW DATABASES prints one table with a row for each database of the session, and nothing else changes (but what the session remembers
    of its merged configuration, which is no observable effect). *)
Theorem show_databases_lists : forall n s k key w c l rows, m_parse m s = Ok (PCommand k (ArgConst key)) -> m_lower m k = t "show" -> m_lower m key = t "databases" ->
  cfg w = Ok c -> assoc (t "databases") c = Some (CList l) -> Forall2 shown_as l rows ->
  exists w' rows', statement m (S n) s w = (w', None) /\ shown w' = shown w ++ [OTable [t "name"; t "driver"; t "params"; t "virtual_views"] rows'] /\
    Forall2 same_row rows' rows /\ env w' = env w /\ genv w' = genv w /\ data w' = data w /\ cfg w' = Ok c.
Proof.
  intros n s k key w c l rows P K Kd Rc L F. rewrite (show_submitted n s k key w P K). unfold show. cbv zeta. rewrite Kd, text_eqb_refl.
  assert (R : exists rows', all_res show_database l = Ok rows' /\ Forall2 same_row rows' rows).
  { clear L. induction F as [|e row l rows H F IH]; [exists []; split; [reflexivity|constructor]|]. destruct IH as (rows' & E & IH).
    destruct (show_database_row e row H) as (o' & Eo & o & X & Oo). exists ([nth 0 row CNull; nth 1 row CNull; CDict o'; nth 3 row CNull] :: rows'). cbn [all_res]. rewrite Eo. cbn [bind]. rewrite E. split; [reflexivity|].
    constructor; [|exact IH]. destruct H as (d & name & driver & views & other & _ & -> & _). cbn [nth] in *. exists name, driver, o', other, views. assert (o = other) as <- by congruence. auto. }
  destruct R as (rows' & E & Fr).
  assert (G : snd (Config_Model.get (m_default m) (S (m_me m)) (confs w) (m_me m)) = Ok c) by exact Rc.
  destruct (Config_Model.get (m_default m) (S (m_me m)) (confs w) (m_me m)) as [tr r] eqn:Eg. cbn [snd] in G. subst r. cbn [bind]. unfold show_databases. rewrite L, E. cbn [bind].
  eexists. exists rows'. split; [reflexivity|]. cbn [shown print with_confs env genv data confs]. repeat split; auto.
  unfold cfg, read_config. cbn [confs print with_confs]. exact (get_again _ _ _ _ _ Eg).
Qed.
(** C121: SHOW IMPORTS prints one table with the name and the alias of every import. *)
Theorem show_imports_lists : forall n s k key w c d, m_parse m s = Ok (PCommand k (ArgConst key)) -> m_lower m k = t "show" -> m_lower m key = t "imports" ->
  cfg w = Ok c -> assoc (t "imports") c = Some (CDict d) ->
  exists w', statement m (S n) s w = (w', None) /\ shown w' = shown w ++ [OTable [t "name"; t "alias"] (map (fun e => [snd e; CStr (fst e)]) d)] /\
    env w' = env w /\ genv w' = genv w /\ data w' = data w /\ cfg w' = Ok c.
Proof.
  intros n s k key w c d P K Kd Rc L. rewrite (show_submitted n s k key w P K). unfold show. cbv zeta. rewrite Kd.
  change (text_eqb (t "imports") (t "databases")) with false. cbn iota. rewrite text_eqb_refl.
  assert (G : snd (Config_Model.get (m_default m) (S (m_me m)) (confs w) (m_me m)) = Ok c) by exact Rc.
  destruct (Config_Model.get (m_default m) (S (m_me m)) (confs w) (m_me m)) as [tr r] eqn:Eg. cbn [snd] in G. subst r. cbn [bind]. unfold show_imports. rewrite L.
  eexists. split; [reflexivity|]. cbn [shown print with_confs env genv data confs]. repeat split; auto.
  unfold cfg, read_config. cbn [confs print with_confs]. exact (get_again _ _ _ _ _ Eg).
Qed.
(** C122: SHOW of anything else is accepted silently: nothing is printed ... *)
Theorem show_other_refuted : forall n s k key w, m_parse m s = Ok (PCommand k (ArgConst key)) -> m_lower m k = t "show" -> m_lower m key <> t "databases" -> m_lower m key <> t "imports" ->
  statement m (S n) s w = (w, None).
Proof.
  intros n s k key w P K N1 N2. rewrite (show_submitted n s k key w P K). unfold show. cbv zeta.
  rewrite (proj2 (text_eqb_neq _ _) N1), (proj2 (text_eqb_neq _ _) N2). reflexivity.
Qed.
(** ... and one database without a driver (such as SET @databases.x.host makes) is enough for SHOW DATABASES to fail without printing anything. *)
Theorem show_databases_driver_refuted : forall n s k key w c l1 d name l2, m_parse m s = Ok (PCommand k (ArgConst key)) -> m_lower m k = t "show" -> m_lower m key = t "databases" ->
  cfg w = Ok c -> assoc (t "databases") c = Some (CList (l1 ++ CDict d :: l2)) -> Forall (fun e => exists row, shown_as e row) l1 ->
  assoc (t "name") d = Some name -> assoc (t "driver") d = None ->
  exists w', statement m (S n) s w = (w', Some KeyError) /\ shown w' = shown w.
Proof.
  intros n s k key w c l1 d name l2 P K Kd Rc L F Nm Dr. rewrite (show_submitted n s k key w P K). unfold show. cbv zeta. rewrite Kd, text_eqb_refl.
  assert (G : snd (Config_Model.get (m_default m) (S (m_me m)) (confs w) (m_me m)) = Ok c) by exact Rc.
  destruct (Config_Model.get (m_default m) (S (m_me m)) (confs w) (m_me m)) as [tr r] eqn:Eg. cbn [snd] in G. subst r. cbn [bind]. unfold show_databases. rewrite L.
  assert (all_res show_database (l1 ++ CDict d :: l2) = Err KeyError) as ->; [|eexists; split; reflexivity].
  clear L. induction F as [|e l1 (row & H) F IH].
  - cbn [app all_res show_database]. rewrite assoc_del. change (text_eqb (t "name") (t "virtual_views")) with false. cbn iota. rewrite Nm, !assoc_del.
    change (text_eqb (t "driver") (t "name")) with false. change (text_eqb (t "driver") (t "virtual_views")) with false. cbn iota. rewrite Dr. reflexivity.
  - cbn [app all_res]. destruct (show_database_row e row H) as (o' & -> & _). cbn [bind]. rewrite IH. reflexivity.
Qed.

(** ** USE *)
Lemma use_submitted : forall n s u w, m_parse m s = Ok (PUse u) -> statement m (S n) s w = use m u w.
Proof.
  intros n s u w P. unfold statement. cbn [submit]. assert (compile m (S n) s w = Ok (TUse u)) as -> by (cbn [compile]; rewrite P; reflexivity).
  cbn [start]. destruct (use m u w) as [w' [e|]]; reflexivity.
Qed.
Lemma split_word : forall p cur r, ~ In 32%N p -> split_go (t " as ") 0 cur (p ++ r) = split_go (t " as ") 0 (rev p ++ cur) r.
Proof.
  induction p as [|c p IH]; intros cur r N; [reflexivity|]. cbn [app split_go].
  assert (prefixb (t " as ") (c :: p ++ r) = false) as ->.
  { cbn [prefixb t]. change (prefixb (32%N :: t "as ") (c :: p ++ r) = false). cbn [prefixb]. assert ((32 =? c)%N = false) as -> by (apply N.eqb_neq; intros <-; apply N; left; reflexivity). reflexivity. }
  rewrite IH by (intro I; apply N; right; exact I). cbn [rev]. rewrite <- app_assoc. reflexivity.
Qed.
Lemma split_one : forall p, ~ In 32%N p -> split_go (t " as ") 0 [] p = [p].
Proof. intros p N. rewrite <- (app_nil_r p) at 1. rewrite split_word by exact N. cbn [split_go]. rewrite app_nil_r, rev_involutive. reflexivity. Qed.
Lemma split_two : forall p a, ~ In 32%N p -> ~ In 32%N a -> split_go (t " as ") 0 [] (p ++ t " as " ++ a) = [p; a].
Proof.
  intros p a N1 N2. rewrite split_word by exact N1. rewrite app_nil_r. change (t " as " ++ a) with (32%N :: 97%N :: 115%N :: 32%N :: a).
  cbn [split_go]. change (prefixb (t " as ") (32%N :: 97%N :: 115%N :: 32%N :: a)) with true. cbn iota. change (length (t " as ") - 1) with 3. rewrite rev_involutive. cbn [split_go]. rewrite split_one by exact N2. reflexivity.
Qed.
(** The alias [a] is now an import of [path] in the session's own settings; nothing else of them, and nothing else at all, has changed. *)
Definition imported (section a path : text) (w w' : world) : Prop :=
  env w' = env w /\ genv w' = genv w /\ data w' = data w /\ shown w' = shown w /\
  exists nd nd', nth_error (confs w) (m_me m) = Some nd /\ nth_error (confs w') (m_me m) = Some nd' /\ parent nd' = parent nd /\
    read (own nd') [section; a] = Some (CStr path) /\ (forall p, apart [section; a] p -> p <> [section] -> read (own nd') p = read (own nd) p) /\
    forall j, j <> m_me m -> nth_error (confs w') j = nth_error (confs w) j.
Lemma configure_section : forall sec a path w nd, sec = t "imports" \/ sec = t "sources" -> ~ In 46%N a -> nth_error (confs w) (m_me m) = Some nd -> section_ok sec (own nd) ->
  exists w', configure m w (sec ++ t "." ++ a) (CStr path) = (w', None) /\ imported sec a path w w'.
Proof.
  intros sec a path w nd Hs Na E So. unfold configure.
  assert (split_on 46 (sec ++ t "." ++ a) = [sec; a]) as ->.
  { change (sec ++ t "." ++ a) with (sec ++ 46%N :: a). rewrite split_on_one, split_on_none; [reflexivity|exact Na|]. destruct Hs as [->| ->]; cbn; intuition discriminate. }
  unfold Config_Model.set_in. rewrite E.
  destruct (set_section (m_json m) (m_view m) sec a [] (CStr path) (CStr path) (own nd)) as (c' & Sc & R1 & R2); [discriminate|left; split; [cbn; intuition|reflexivity]|exact So|].
  match goal with |- context [Config_Model.set ?j ?v ?k ?x ?o] => assert (Z : Config_Model.set j v k x o = Ok c') by exact Sc; rewrite Z end. cbn [bind]. eexists. split; [reflexivity|]. unfold imported. cbn [env genv data shown confs with_confs]. repeat (split; [reflexivity|]).
  exists nd, (mknode c' (parent nd) None). split; [exact E|]. rewrite nth_set_nth, Nat.eqb_refl, E. split; [reflexivity|]. split; [reflexivity|]. split; [exact R1|]. split; [exact R2|].
  intros j Nj. rewrite nth_set_nth. assert ((m_me m =? j) = false) as -> by (apply Nat.eqb_neq; congruence). reflexivity.
Qed.
Lemma word_trimmed : forall p, Forall (fun c => m_sp m c = false) p -> strip (m_sp m) p = p.
Proof. intros p F. apply strip_no_blank. exact F. Qed.
Definition section_of (path : text) : text := if m_exists m path then t "sources" else t "imports".
Lemma section_dot : forall path a, (if m_exists m path then t "sources." else t "imports.") ++ a = section_of path ++ t "." ++ a.
Proof. intros path a. unfold section_of. destruct (m_exists m path); reflexivity. Qed.
Lemma section_of_cases : forall path, section_of path = t "imports" \/ section_of path = t "sources".
Proof. intro path. unfold section_of. destruct (m_exists m path); auto. Qed.
(** A word: not empty, no white space in it. *)
Definition word (p : text) : Prop := p <> [] /\ ~ In 32%N p /\ Forall (fun c => m_sp m c = false) p.
(** C123: USE `path as alias` makes an importable module known under the alias (as a source if the path also is a file). *)
Theorem use_as : forall n s path alias w nd, m_parse m s = Ok (PUse (path ++ t " as " ++ alias)) -> word path -> word alias -> ~ In 46%N alias -> m_importable m path = true ->
  nth_error (confs w) (m_me m) = Some nd -> section_ok (section_of path) (own nd) ->
  exists w', statement m (S n) s w = (w', None) /\ imported (section_of path) alias path w w'.
Proof.
  intros n s path alias w nd P (N1 & S1 & W1) (N2 & S2 & W2) Na Im E So. rewrite (use_submitted n s _ w P). unfold use.
  rewrite split_two by assumption. cbn [map]. rewrite !word_trimmed by assumption. destruct path as [|c r] eqn:Ep; [congruence|]. rewrite <- Ep in *. rewrite Im. cbn [negb]. cbv zeta.
  rewrite section_dot. exact (configure_section _ alias path w nd (section_of_cases path) Na E So).
Qed.
(** C123: USE `path` makes it known under the last part of its name. *)
Theorem use_plain : forall n s path pre lastpart w nd, m_parse m s = Ok (PUse path) -> word path -> path = lastpart \/ path = pre ++ t "." ++ lastpart -> ~ In 46%N lastpart -> m_importable m path = true ->
  nth_error (confs w) (m_me m) = Some nd -> section_ok (section_of path) (own nd) ->
  exists w', statement m (S n) s w = (w', None) /\ imported (section_of path) lastpart path w w'.
Proof.
  intros n s path pre lastpart w nd P (N1 & S1 & W1) X Na Im E So. rewrite (use_submitted n s _ w P). unfold use.
  rewrite split_one by assumption. cbn [map]. rewrite !word_trimmed by assumption.
  assert (L : last (split_on 46 path) [] = lastpart).
  { destruct X as [->| ->]; [rewrite split_on_none by exact Na; reflexivity|]. change (pre ++ t "." ++ lastpart) with (pre ++ 46%N :: lastpart).
    clear - Na. assert (NE : forall s, split_on 46 s <> []) by (intros [|c s]; cbn; [discriminate|destruct (c =? 46)%N; [discriminate|destruct (split_on 46 s); discriminate]]).
    induction pre as [|c pre IH]; cbn [app split_on].
    - change (46 =? 46)%N with true. cbn iota. rewrite split_on_none by exact Na. reflexivity.
    - destruct (c =? 46)%N; [destruct (split_on 46 (pre ++ 46%N :: lastpart)) eqn:Z; [exfalso; exact (NE _ Z)|cbn [last] in *; exact IH]|].
      destruct (split_on 46 (pre ++ 46%N :: lastpart)) as [|g gs] eqn:Z; [exfalso; exact (NE _ Z)|]. cbn [last] in *. destruct gs; [|exact IH].
      exfalso. assert (In 46%N (pre ++ 46%N :: lastpart)) by (apply in_or_app; right; left; reflexivity). 
      assert (J := split_on_join 46 (pre ++ 46%N :: lastpart)). rewrite Z in J. cbn [join_with] in J.
      assert (K : forall s p, In p (split_on 46 s) -> ~ In 46%N p).
      { clear. induction s as [|c s IH]; intros p I; cbn [split_on] in I; [destruct I as [<-|[]]; intros []|]. destruct (c =? 46)%N eqn:Q; [destruct I as [<-|I]; [intros []|exact (IH p I)]|].
        destruct (split_on 46 s) as [|g gs]; [destruct I as [<-|[]]; intros [->|[]]; discriminate|]. destruct I as [<-|I]; [|apply IH; right; exact I].
        intros [->|I]; [discriminate|]. exact (IH g (or_introl eq_refl) I). }
      apply (K (pre ++ 46%N :: lastpart) g); [rewrite Z; left; reflexivity|]. rewrite J. assumption. }
  destruct path as [|c r] eqn:Ep; [congruence|]. rewrite <- Ep in *. rewrite Im. cbn [negb]. cbv zeta. rewrite L.
  rewrite section_dot. exact (configure_section _ lastpart path w nd (section_of_cases path) Na E So).
Qed.
(** C124: a path that is a file but not an importable module is refused; nothing changes. *)
Theorem use_source_refuted : forall n s path w, m_parse m s = Ok (PUse path) -> word path -> m_exists m path = true -> m_importable m path = false ->
  statement m (S n) s w = (w, Some OtherError).
Proof.
  intros n s path w P (N1 & S1 & W1) _ Im. rewrite (use_submitted n s _ w P). unfold use. rewrite split_one by assumption. cbn [map]. rewrite word_trimmed by assumption.
  destruct path as [|c r] eqn:Ep; [congruence|]. rewrite <- Ep in *. rewrite Im. reflexivity.
Qed.
(** C124: AS in capital letters is not understood: the whole text is taken as the name of the module. *)
Theorem use_as_case_refuted : forall n s path alias w, m_parse m s = Ok (PUse (path ++ t " AS " ++ alias)) -> word path -> word alias -> m_importable m (path ++ t " AS " ++ alias) = false ->
  statement m (S n) s w = (w, Some OtherError).
Proof.
  intros n s path alias w P (N1 & S1 & W1) (N2 & S2 & W2) Im. rewrite (use_submitted n s _ w P). unfold use.
  assert (X : split_go (t " as ") 0 [] (path ++ t " AS " ++ alias) = [path ++ t " AS " ++ alias]).
  { rewrite split_word by exact S1. rewrite app_nil_r. change (t " AS " ++ alias) with (32%N :: 65%N :: 83%N :: 32%N :: alias) at 1. cbn [split_go].
    change (prefixb (t " as ") (32%N :: 65%N :: 83%N :: 32%N :: alias)) with false. change (prefixb (t " as ") (65%N :: 83%N :: 32%N :: alias)) with false.
    change (prefixb (t " as ") (83%N :: 32%N :: alias)) with false. cbn iota.
    assert (prefixb (t " as ") (32%N :: alias) = false) as ->.
    { change (prefixb (t " as ") (32%N :: alias)) with (prefixb (t "as ") alias). destruct (prefixb (t "as ") alias) eqn:Z; [|reflexivity]. apply prefixb_spec in Z. destruct Z as (r & ->). exfalso. apply S2. right. right. left. reflexivity. }
    rewrite <- (app_nil_r alias) at 1. rewrite split_word by exact S2. cbn [split_go]. f_equal. rewrite rev_app_distr, rev_involutive. cbn [rev]. rewrite rev_involutive, <- !app_assoc. reflexivity. }
  rewrite X. cbn [map].
  assert (strip (m_sp m) (path ++ t " AS " ++ alias) = path ++ t " AS " ++ alias) as ->.
  { apply strip_trimmed. split.
    - intros c r E. destruct path as [|c' path]; [congruence|]. injection E as <- _. inversion W1; assumption.
    - intros c r E. destruct (@exists_last _ alias N2) as (al & z & ->). rewrite !app_assoc in E. apply app_inj_tail in E as [_ ->]. rewrite Forall_forall in W2. apply W2. apply in_or_app. right. left. reflexivity. }
  destruct path as [|c r]; [congruence|]. cbn [app]. cbn [app] in Im. rewrite Im. reflexivity.
Qed.
(** C119: SET @imports.name = text, SET @sources.name = text set that entry of the session's configuration, and nothing else. *)
Theorem set_import : forall n s sec a value path w nd, sane -> sec = t "imports" \/ sec = t "sources" -> set_statement s (t "@" ++ sec ++ t "." ++ a) value ->
  ~ In 46%N a -> ascii value -> set_denotes (m_sp m) value (LText path) -> nth_error (confs w) (m_me m) = Some nd -> section_ok sec (own nd) ->
  exists w', statement m (S n) s w = (w', None) /\ imported sec a path w w'.
Proof.
  intros n s sec a value path w nd [Hd Hl] Hs St Na A Dn E So.
  assert (T : set_target (t "@" ++ sec ++ t "." ++ a) = (false, TConf (sec ++ t "." ++ a))).
  { rewrite set_target_route. change (skipn 1 (t "@" ++ sec ++ t "." ++ a)) with (sec ++ t "." ++ a).
    destruct Hs as [->| ->]; reflexivity. }
  destruct (configure_section sec a path w nd Hs Na E So) as (w' & C1 & I).
  unfold statement. rewrite (set_statement_submitted n s _ value w St). unfold set_start. cbv zeta. rewrite T, (set_statement_value _ _ _ St).
  rewrite (set_value_denotes (m_sp m) (m_isdigit m) (m_lower m) Hd Hl value _ A (set_statement_trimmed _ _ _ St) Dn). cbn [val_of_lit cval_of].
  unfold set_config. unfold configure in C1. destruct (set_in _ _ _ _ _ _) as [tr|e]; [|discriminate].
  exists w'. split; [|exact I]. exact C1.
Qed.
End Stmt.
Print Assumptions other_statements_refused. Print Assumptions syntax_errors_refused. Print Assumptions queries_accepted. Print Assumptions deletions_accepted.
Print Assumptions explain_executes. Print Assumptions explain_other_refuted.
Print Assumptions set_variable. Print Assumptions set_global_variable. Print Assumptions set_expression. Print Assumptions set_expression_refused.
Print Assumptions set_global_expression_refuted. Print Assumptions set_quoted_expression_refuted. Print Assumptions set_reserved_refuted. Print Assumptions set_global_prefix_refuted.
Print Assumptions set_import. Print Assumptions set_signed_decimal_partial. Print Assumptions set_config_decimal_refuted.
Print Assumptions show_databases_lists. Print Assumptions show_imports_lists. Print Assumptions show_other_refuted. Print Assumptions show_databases_driver_refuted.
Print Assumptions use_as. Print Assumptions use_plain. Print Assumptions use_source_refuted. Print Assumptions use_as_case_refuted.

(** ** The hypotheses are met: a machine whose tables are a list of numbers, and whose queries add their number to it. *)
Definition ex_table : list (text * parsed nat) :=
  [ (t "insert", PInsert 7 false); (t "explain insert", PCommand (t "EXPLAIN") (ArgConst (t "insert"))); (t "delete", PDelete 3);
    (t "explain delete", PCommand (t "explain") (ArgConst (t "delete"))); (t "drop table t", POther); (t "union into", PUnion 1 true);
    (t "set @x = 'a=b'", PSet (t "@x = 'a=b'")); (t "set global @x=-12", PSet (t "global @x=-12")); (t "set @x=@y+1", PSet (t "@x=@y+1"));
    (t "select @y+1 into @x", PSelect 5 (Some (ToVariable (t "@x")))); (t "set @x='a' || 'b'", PSet (t "@x='a' || 'b'"));
    (t "set @configuration=1", PSet (t "@configuration=1")); (t "set globalvalue=1", PSet (t "globalvalue=1"));
    (t "set @x=-1.5", PSet (t "@x=-1.5")); (t "select -1.5 into @x", PSelect 6 (Some (ToVariable (t "@x"))));
    (t "set @config.rate=-1.5", PSet (t "@config.rate=-1.5"));
    (t "show databases", PCommand (t "SHOW") (ArgConst (t "databases"))); (t "show tables", PCommand (t "SHOW") (ArgConst (t "tables")));
    (t "use os.path as p", PUse (t "os.path as p")); (t "use os.path", PUse (t "os.path")); (t "use data.csv", PUse (t "data.csv")); (t "use os.path AS p", PUse (t "os.path AS p")) ].
Definition ex_m : machine nat nat (list nat) :=
  {| m_parse := fun s => match assoc s ex_table with Some p => Ok p | None => Err OtherError end;
     m_sp := is_space_ascii; m_isdigit := is_digit_ascii; m_lower := map lower_letter; m_json := fun _ => None; m_view := fun q => (q, CNull); m_default := [];
     m_tag := fun _ => 0%Z; m_importable := fun p => text_eqb p (t "os.path"); m_exists := fun p => text_eqb p (t "data.csv"); m_me := 1; m_verbose := fun _ => false;
     m_compile := fun q _ => Ok q; m_qstart := fun _ _ w => (w, None); m_dstart := fun _ _ w => (w, None); m_istart := fun _ _ _ w => (w, None); m_fstart := fun _ w => (w, None);
     m_qrun := fun c w => (mkworld (env w) (genv w) (confs w) (data w ++ [c]) (shown w), None);
     m_drun := fun c w => (mkworld (env w) (genv w) (confs w) [] (shown w), None);
     m_irun := fun c x w => (with_env w (dict_set x (VInt (Z.of_nat c)) (env w)), None); m_frun := fun _ w => (w, None) |}.
Definition ex_w : world nat (list nat) :=
  mkworld [(t "@y", VInt 4)] [] [mknode [(t "databases", CList [CDict [(t "name", CStr (t "m")); (t "driver", CStr (t "mysql")); (t "host", CStr (t "h"))]])] 0 None; mknode [] 0 None] [1] [].
Example ex_refused : statement ex_m 1 (t "drop table t") ex_w = (ex_w, Some CompileError) /\ ~ understood (map lower_letter) (@POther nat) /\
  statement ex_m 1 (t "union into") ex_w = (ex_w, Some CompileError) /\ ~ understood (map lower_letter) (PUnion 1 true).
Proof. repeat split; try (vm_compute; reflexivity); intro K; inversion K. Qed.
(** C118: EXPLAIN of an insertion inserts. *)
Theorem explain_insert_refuted : data (fst (statement ex_m 2 (t "explain insert") ex_w)) <> data ex_w /\ data (fst (statement ex_m 2 (t "explain insert") ex_w)) = data (fst (statement ex_m 2 (t "insert") ex_w)).
Proof. split; vm_compute; [discriminate|reflexivity]. Qed.
Example ex_explain : query_of (PInsert 7 false) 7 /\ shown (fst (statement ex_m 2 (t "explain insert") ex_w)) = [OPlan 7] /\
  statement ex_m 2 (t "explain delete") ex_w = (ex_w, Some AttributeError) /\ (forall q, ~ query_of (PDelete 3) q).
Proof. repeat split; try (vm_compute; reflexivity); [constructor|]. intros q K. inversion K. Qed.
Lemma ex_sane : sane nat nat (list nat) ex_m.
Proof.
  split; [|reflexivity]. intros c _. cbn [ex_m m_isdigit]. unfold is_digit_ascii, digit. rewrite andb_true_iff, !N.leb_le. tauto.
Qed.
Lemma trimmed_check : forall sp x, match x with [] => True | c :: _ => sp c = false /\ sp (last x 0%N) = false end -> trimmed sp x.
Proof.
  intros sp x H. split; intros c r ->; [apply H|]. destruct (r ++ [c]) as [|z l] eqn:E; [destruct r; discriminate|]. destruct H as [_ H]. rewrite <- E, last_last in H. exact H.
Qed.
Lemma ex_ordinary : ordinary (t "@x").
Proof. exists (t "x"). split; [left; reflexivity|]. cbn. repeat split; intuition discriminate. Qed.
Ltac set_stmt b1 b2 b3 b4 := eexists; exists b1, b2, b3, b4; split; [vm_compute; reflexivity|]; split; [exact (s_item _ _ _)|];
  repeat match goal with
  | |- _ /\ _ => split
  | |- Forall _ [] => apply Forall_nil
  | |- Forall _ (_ :: _) => apply Forall_cons; [vm_compute; reflexivity|]
  | |- trimmed _ _ => apply trimmed_check; cbn; auto
  | |- ~ _ => cbn; intuition discriminate
  end.
Example ex_set : set_statement nat nat (list nat) ex_m (t "set @x = 'a=b'") (t "@x") (t "'a=b'") /\ set_denotes is_space_ascii (t "'a=b'") (LText (t "a=b")) /\
  env (fst (statement ex_m 1 (t "set @x = 'a=b'") ex_w)) = [(t "@y", VInt 4); (t "@x", VStr (t "a=b"))].
Proof.
  split; [set_stmt (@nil N) [32%N] [32%N] (@nil N)|]. split; [|vm_compute; reflexivity].
  apply (@sd_quoted is_space_ascii 39%N (t "a=b")); [auto|cbn; intuition discriminate|apply trimmed_check; cbn; auto].
Qed.
Example ex_set_global : set_statement nat nat (list nat) ex_m (t "set global @x=-12") (t "global" ++ t " " ++ t "@x") (t "-12") /\ set_denotes is_space_ascii (t "-12") (LInt (-12)) /\
  genv (fst (statement ex_m 1 (t "set global @x=-12") ex_w)) = [(t "@x", VInt (-12))].
Proof.
  split; [set_stmt (@nil N) (@nil N) (@nil N) (@nil N)|]. split; [|vm_compute; reflexivity].
  apply (@sd_negint is_space_ascii (t "12")). split; [discriminate|repeat constructor; unfold digit; cbn; lia].
Qed.
Example ex_set_expression : set_statement nat nat (list nat) ex_m (t "set @x=@y+1") (t "@x") (t "@y+1") /\
  statement ex_m 2 (t "set @x=@y+1") ex_w = statement ex_m 1 (t "select @y+1 into @x") ex_w /\ assoc (t "@x") (env (fst (statement ex_m 2 (t "set @x=@y+1") ex_w))) = Some (VInt 5).
Proof. split; [set_stmt (@nil N) (@nil N) (@nil N) (@nil N)|]. split; vm_compute; reflexivity. Qed.
Example ex_set_quoted : set_statement nat nat (list nat) ex_m (t "set @x='a' || 'b'") (t "@x") (t "'a' || 'b'") /\ starts_quoted (t "'a' || 'b'") /\
  assoc (t "@x") (env (fst (statement ex_m 2 (t "set @x='a' || 'b'") ex_w))) = Some (VStr (t "a' || 'b")).
Proof. split; [set_stmt (@nil N) (@nil N) (@nil N) (@nil N)|]. split; [exists 39%N, (t "a' || 'b'"); split; [reflexivity|auto]|vm_compute; reflexivity]. Qed.
Example ex_set_reserved : set_statement nat nat (list nat) ex_m (t "set @configuration=1") (t "@configuration") (t "1") /\ t "@configuration" = t "@config" ++ t "uration" /\
  map own (confs (fst (statement ex_m 1 (t "set @configuration=1") ex_w))) <> map own (confs ex_w).
Proof. split; [set_stmt (@nil N) (@nil N) (@nil N) (@nil N)|]. split; vm_compute; [reflexivity|discriminate]. Qed.
Example ex_set_globalvalue : set_statement nat nat (list nat) ex_m (t "set globalvalue=1") (t "global" ++ t "value") (t "1") /\
  genv (fst (statement ex_m 1 (t "set globalvalue=1") ex_w)) = [(t "value", VInt 1)].
Proof. split; [set_stmt (@nil N) (@nil N) (@nil N) (@nil N)|]. vm_compute. reflexivity. Qed.
Example ex_signed : set_statement nat nat (list nat) ex_m (t "set @x=-1.5") (t "@x") (45%N :: t "1" ++ 46%N :: t "5") /\
  assoc (t "@x") (env (fst (statement ex_m 2 (t "set @x=-1.5") ex_w))) = Some (VInt 6) /\
  set_statement nat nat (list nat) ex_m (t "set @config.rate=-1.5") (t "@config" ++ t ".rate") (45%N :: t "1" ++ 46%N :: t "5") /\
  statement ex_m 2 (t "set @config.rate=-1.5") ex_w = (ex_w, Some ValueError).
Proof. split; [set_stmt (@nil N) (@nil N) (@nil N) (@nil N)|]. split; [vm_compute; reflexivity|]. split; [set_stmt (@nil N) (@nil N) (@nil N) (@nil N)|vm_compute; reflexivity]. Qed.
Example ex_show : shown (fst (statement ex_m 1 (t "show databases") ex_w)) = [OTable [t "name"; t "driver"; t "params"; t "virtual_views"] [[CStr (t "m"); CStr (t "mysql"); CDict [(t "host", CStr (t "h"))]; CStr []]]] /\
  shown_as (CDict [(t "name", CStr (t "m")); (t "driver", CStr (t "mysql")); (t "host", CStr (t "h"))]) [CStr (t "m"); CStr (t "mysql"); CDict [(t "host", CStr (t "h"))]; CStr []] /\
  statement ex_m 1 (t "show tables") ex_w = (ex_w, None).
Proof.
  split; [vm_compute; reflexivity|]. split; [|vm_compute; reflexivity].
  eexists _, _, _, _, _. split; [reflexivity|]. split; [reflexivity|]. repeat (split; [vm_compute; reflexivity|]). intro k. cbn [assoc mem existsb].
  destruct (text_eqb k (t "name")) eqn:E1; [apply text_eqb_spec in E1; subst; reflexivity|]. destruct (text_eqb k (t "driver")) eqn:E2; [apply text_eqb_spec in E2; subst; reflexivity|].
  destruct (text_eqb k (t "virtual_views")) eqn:E3; [apply text_eqb_spec in E3; subst; reflexivity|]. reflexivity.
Qed.
Example ex_use : map own (confs (fst (statement ex_m 1 (t "use os.path as p") ex_w))) = [own (nth 0 (confs ex_w) (mknode [] 0 None)); [(t "imports", CDict [(t "p", CStr (t "os.path"))])]] /\
  map own (confs (fst (statement ex_m 1 (t "use os.path") ex_w))) = [own (nth 0 (confs ex_w) (mknode [] 0 None)); [(t "imports", CDict [(t "path", CStr (t "os.path"))])]] /\
  statement ex_m 1 (t "use data.csv") ex_w = (ex_w, Some OtherError) /\ statement ex_m 1 (t "use os.path AS p") ex_w = (ex_w, Some OtherError) /\
  word nat nat (list nat) ex_m (t "os.path").
Proof. repeat (split; [vm_compute; reflexivity|]). split; [discriminate|]. split; [cbn; intuition discriminate|repeat constructor]. Qed.

(** Window functions: what every query of the class [plain_wquery] computes, and where the code departs from SQL. *)
From Coq Require Import SpecFloat Permutation Sorting.Sorted Lia.
From Verif Require Import Base PyVal Utils_Model Calc_Model Config_Model Agg_Model Agg_Spec
  Json_Proofs Expr_Syntax Expr_Model Expr_Spec Expr_Proofs Expr_Props Having_Spec Having_Model Having_Proofs Group_Syntax Group_Model Group_Spec Group_Proofs Group_Props
  Select_Model Select_Spec Select_Proofs Winq_Syntax Winq_Model Winq_Spec Winq_Proofs.
Open Scope nat_scope.

Section Correct.
Variable frepr : spec_float -> text.
Variable ident : val -> val -> bool.
Variable ext : text -> option (list val -> val).
Variable lib : text -> list val -> val.
Variable tt : text -> bool.
Variable str_of : val -> text.
Variable leK : val -> val -> bool.
Variable nested : text -> row -> val.
Variable fn : text -> list (list val * list val) -> nat -> val.
Variable known : text -> bool.
Notation value := (sem tt (sql_fn frepr ident ext lib)).

(** What is asked of the rows: the values of PARTITION BY are equal to themselves, and the values over which an aggregate is taken can be
    aggregated. *)
Definition rows_fit (fr : frame_rows) (q : wquery) (rows : list row) : Prop :=
  forall c alias i k w, In c (numbered rows) -> In (alias, i) (wq_items q) -> In k (wcalls i) -> window_of (wq_windows q) k = Some w ->
    equal_keys (part_key value w (snd c)) (part_key value w (snd c)) = true /\
    forall a, w_fun k = WAgg a ->
      (w_order w = [] -> summable (a_fun a) (a_distinct a) (argument value a (map snd (partition value equal_keys w rows (snd c))))) /\
      (forall bef aft, w_order w <> [] -> sorted_as (before_or_tied value leK w) (partition value equal_keys w rows (snd c)) (bef ++ c :: aft) ->
        summable (a_fun a) (a_distinct a) (argument value a (map snd (fr (before_or_tied value leK w) bef c aft)))).
(** The rows of [out] are those of the table, in order; every item is shown once, under its name, in one order of the columns for all the rows. *)
Definition shows (fr : frame_rows) (q : wquery) (rows : list row) (out : list (list (text * val))) : Prop :=
  exists columns, Permutation (wq_items q) columns /\
    Forall2 (fun c row => Forall2 (fun ai nv => fst nv = fst ai /\
      witem_value str_of value equal_keys leK fn fr (wq_windows q) rows c (snd ai) (snd nv)) columns row) (numbered rows) out.

Lemma shown_perm : forall l, Permutation l (shown l).
Proof.
  induction l as [|x l IH]; [constructor|]. unfold shown. cbn [filter]. destruct (is_expr x); cbn [negb].
  - apply Permutation_cons_app. exact IH.
  - cbn [app]. apply perm_skip. exact IH.
Qed.

Lemma window_rows : ext (t "neg") = None -> total_preorder leK ->
  forall q, plain_wquery known q ->
  exists cfg, wcompile frepr ident ext known q = Ok cfg /\
  forall rows, rows_fit rows_frame q rows ->
    exists out, run_wquery frepr ident ext lib str_of leK nested fn cfg rows = Ok out /\
      Forall2 (fun c row => Forall2 (fun ai nv => fst nv = fst ai /\
        witem_value str_of value equal_keys leK fn rows_frame (wq_windows q) rows c (snd ai) (snd nv)) (shown (wq_items q)) row) (numbered rows) out.
Proof.
  intros NN TP q P. pose proof P as (NW & ND & PI).
  exists (mkwconfig (cols_of frepr ident ext q (wq_items q)) (finals_of frepr ident ext (wq_items q))). split.
  - unfold wcompile. rewrite (parse_windows_id _ NW). apply (wcompile_items_ok frepr ident ext known q (wq_items q) []); [reflexivity|exact ND|exact PI].
  - intros rows RF. unfold run_wquery. apply mapm_ok. intros c Ic.
    apply (wout_row_ok frepr ident ext lib tt NN str_of leK TP nested fn known q rows c Ic P).
    + intros alias i k w I J W. apply (RF c alias i k w Ic I J W).
    + intros alias i k I J w a W Fk. apply (RF c alias i k w Ic I J W). exact Fk.
Qed.

(** Every query of the class compiles; its result has one row per row of the table, in the same order, and one column per item; an aggregate over a
    window without ORDER BY is taken over the whole partition and otherwise over the rows of the partition up to the current one; a window
    function gets the rows of the partition in the order of ORDER BY (ties in the order of the table) and the position of the current one; an
    expression is computed from the values of its window functions and of the columns of the row. *)
Theorem window_query_rows : ext (t "neg") = None -> total_preorder leK ->
  forall q, plain_wquery known q ->
  exists cfg, wcompile frepr ident ext known q = Ok cfg /\
  forall rows, rows_fit rows_frame q rows ->
    exists out, run_wquery frepr ident ext lib str_of leK nested fn cfg rows = Ok out /\ shows rows_frame q rows out.
Proof.
  intros NN TP q P. destruct (window_rows NN TP q P) as (cfg & C & H). exists cfg. split; [exact C|]. intros rows RF.
  destruct (H rows RF) as (out & E & F). exists out. split; [exact E|]. exists (shown (wq_items q)). split; [apply shown_perm|exact F].
Qed.

(** No two rows of a partition are tied in the ORDER BY of an aggregate. *)
Definition no_ties (q : wquery) (rows : list row) : Prop :=
  forall alias i k w a x y, In (alias, i) (wq_items q) -> In k (wcalls i) -> window_of (wq_windows q) k = Some w -> w_fun k = WAgg a -> w_order w <> [] ->
    In x (numbered rows) -> In y (numbered rows) -> equal_keys (part_key value w (snd x)) (part_key value w (snd y)) = true ->
    before_or_tied value leK w x y = true -> before_or_tied value leK w y x = true -> x = y.

Lemma frames_agree : total_preorder leK -> forall w rows c bef aft,
  (forall y, In y (numbered rows) -> equal_keys (part_key value w (snd c)) (part_key value w (snd y)) = true ->
     before_or_tied value leK w c y = true -> before_or_tied value leK w y c = true -> c = y) ->
  sorted_as (before_or_tied value leK w) (partition value equal_keys w rows (snd c)) (bef ++ c :: aft) ->
  sql_frame (before_or_tied value leK w) bef c aft = rows_frame (before_or_tied value leK w) bef c aft.
Proof.
  intros TP w rows c bef aft NT (P & S & _). unfold sql_frame, rows_frame.
  assert (TW : total_preorder (before_or_tied value leK w)) by (apply lex_total; exact TP). destruct TW as [Tot _].
  set (le := before_or_tied value leK w) in *.
  assert (ND : NoDup (bef ++ c :: aft)).
  { apply (Permutation_NoDup P). apply NoDup_filter. apply (NoDup_map_inv fst). apply numbered_nodup. }
  assert (Sb : Forall (fun x => le x c = true) bef /\ Forall (fun x => le c x = true) aft).
  { clear P ND NT. induction bef as [|b bef IH]; cbn [app] in S; apply StronglySorted_inv in S as [S F].
    - split; [constructor|exact F].
    - destruct (IH S) as [H1 H2]. split; [|exact H2]. constructor; [|exact H1]. rewrite Forall_forall in F. apply F. apply in_app_iff. right. left. reflexivity. }
  destruct Sb as [Sb Sa]. rewrite filter_app. cbn [filter].
  assert (le c c = true) as -> by (destruct (Tot c c); assumption).
  assert (filter (fun x => le x c) bef = bef) as ->.
  { clear -Sb. induction Sb as [|x l H Sb IH]; [reflexivity|]. cbn [filter]. rewrite H, IH. reflexivity. }
  assert (filter (fun x => le x c) aft = []) as ->; [|reflexivity].
  assert (G : forall x, In x aft -> le x c = false).
  { intros x I. destruct (le x c) eqn:E; [|reflexivity]. exfalso.
    assert (Ix : In x (partition value equal_keys w rows (snd c))) by (apply (Permutation_in x (Permutation_sym P)); apply in_app_iff; right; right; exact I).
    apply filter_In in Ix as [Ix Kx]. rewrite Forall_forall in Sa.
    pose proof (NT x Ix Kx (Sa x I) E) as <-. apply NoDup_remove_2 in ND. apply ND. apply in_app_iff. right. exact I. }
  clear -G. induction aft as [|x aft IH]; [reflexivity|]. cbn [filter]. rewrite (G x (or_introl eq_refl)). apply IH. intros y I. apply G. right. exact I.
Qed.

(** Without ties the values are those of SQL. *)
Theorem window_query_correct : ext (t "neg") = None -> total_preorder leK ->
  forall q, plain_wquery known q ->
  exists cfg, wcompile frepr ident ext known q = Ok cfg /\
  forall rows, rows_fit sql_frame q rows -> no_ties q rows ->
    exists out, run_wquery frepr ident ext lib str_of leK nested fn cfg rows = Ok out /\ shows sql_frame q rows out.
Proof.
  intros NN TP q P. destruct (window_query_rows NN TP q P) as (cfg & C & H). exists cfg. split; [exact C|]. intros rows RF NT.
  destruct (H rows) as (out & E & cols & PC & F).
  - intros c alias i k w Ic I J W. destruct (RF c alias i k w Ic I J W) as [R1 R2]. split; [exact R1|]. intros a Fk. destruct (R2 a Fk) as [S1 S2]. split; [exact S1|].
    intros bef aft O SA. rewrite <- (frames_agree TP w rows c bef aft); [apply (S2 bef aft O SA)| |exact SA].
    intros y Iy K L1 L2. exact (NT alias i k w a c y I J W Fk O Ic Iy K L1 L2).
  - exists out. split; [exact E|]. exists cols. split; [exact PC|].
    assert (FI : forall (A B : Type) (R S : A -> B -> Prop) l m, (forall a b, In a l -> R a b -> S a b) -> Forall2 R l m -> Forall2 S l m).
    { intros A B R S l m X Y. induction Y as [|a b l m Rab Y IH]; constructor; [apply X; [left; reflexivity|exact Rab]|apply IH; intros a' b' I; apply X; right; exact I]. }
    eapply FI; [|exact F]. intros c row Ic Fr. eapply FI; [|exact Fr]. intros [alias i] nv Ia [Hn Hv]. cbn [fst snd] in *. split; [exact Hn|].
    assert (II : In (alias, i) (wq_items q)) by (apply (Permutation_in _ (Permutation_sym PC)); exact Ia).
    assert (CV : forall k w v, In k (wcalls i) -> window_of (wq_windows q) k = Some w -> call_value str_of value equal_keys leK fn rows_frame rows c w (w_fun k) v ->
      call_value str_of value equal_keys leK fn sql_frame rows c w (w_fun k) v).
    { intros k w v J W CVv. inversion CVv as [a v' O A Fk|a bef aft v' O SA A Fk|name args bef aft SA Fk].
      - apply V_whole; assumption.
      - apply V_running with (bef := bef) (aft := aft); [exact O|exact SA|]. rewrite (frames_agree TP w rows c bef aft); [exact A| |exact SA].
        intros y Iy K L1 L2. exact (NT alias i k w a c y II J W (eq_sym Fk) O Ic Iy K L1 L2).
      - apply V_function. exact SA. }
    inversion Hv as [v E1|n E1|e E1|k w v W K E1|e holes vs K E1 E2].
    + apply V_const.
    + apply (V_col str_of value equal_keys leK fn sql_frame (wq_windows q) rows c n).
    + apply V_calc.
    + apply V_win with (w := w); [exact W|]. apply CV; [subst i; left; reflexivity|exact W|exact K].
    + apply V_expr. eapply FI; [|exact K]. intros h v Ih [H1 (w & W & X)]. split; [exact H1|]. exists w. split; [exact W|]. apply CV; [|exact W|exact X].
      subst i. cbn [wcalls]. apply in_map. exact Ih.
Qed.

(** The columns stand in the order of the items when there is no expression around window functions. *)
Theorem window_columns_in_order : ext (t "neg") = None -> total_preorder leK ->
  forall q, plain_wquery known q -> (forall alias e holes, ~ In (alias, WExpr e holes) (wq_items q)) ->
  exists cfg, wcompile frepr ident ext known q = Ok cfg /\
  forall rows, rows_fit rows_frame q rows ->
    exists out, run_wquery frepr ident ext lib str_of leK nested fn cfg rows = Ok out /\
      length out = length rows /\ Forall (fun row => map fst row = map fst (wq_items q)) out.
Proof.
  intros NN TP q P NE. destruct (window_rows NN TP q P) as (cfg & C & H). exists cfg. split; [exact C|]. intros rows RF.
  destruct (H rows RF) as (out & E & F). exists out. split; [exact E|].
  assert (SH : shown (wq_items q) = wq_items q).
  { unfold shown. assert (G : forall x, In x (wq_items q) -> is_expr x = false).
    { intros [a i] I. destruct i; try reflexivity. exfalso. exact (NE _ _ _ I). }
    clear -G. induction (wq_items q) as [|x l IH]; [reflexivity|]. cbn [filter]. rewrite (G x (or_introl eq_refl)). cbn [negb app]. f_equal. apply IH.
    intros y I. apply G. right. exact I. }
  rewrite SH in F. split.
  - assert (L : length (numbered rows) = length out) by (clear -F; induction F; cbn [length]; congruence). rewrite <- L. transitivity (length (map fst (numbered rows))); [symmetry; apply map_length|]. rewrite numbered_fst. apply seq_length.
  - clear -F. induction F as [|c row l out Fr F IH]; constructor; [|exact IH]. clear -Fr. induction Fr as [|x y l r [H _] F IH]; [reflexivity|]. cbn [map]. rewrite IH, H. reflexivity.
Qed.

(** ** Refused queries *)
Lemma window_column_err : forall windows schema c e, window_column frepr ident ext known windows schema c = Err e -> e = CompileError.
Proof.
  intros windows schema c e. unfold window_column.
  assert (V : forall x, window_values frepr ident ext (w_fun c) = Err x -> x = CompileError).
  { intros x. unfold window_values. destruct (w_fun c) as [a|n d l]; [destruct (a_distinct a && _)|destruct d]; congruence. }
  assert (K : forall x, window_calculate known (w_fun c) = Err x -> x = CompileError).
  { intros x. unfold window_calculate. destruct (w_fun c) as [a|n d l]; [|destruct (known n); congruence].
    unfold calculater_of. destruct (a_fun a), (a_distinct a); cbn [bind]; congruence. }
  destruct (window_values frepr ident ext (w_fun c)); cbn [bind]; [|intros H; apply V; congruence].
  destruct (w_name c) as [n|]; [destruct (assoc n windows)|]; cbn [bind]; try congruence;
    (destruct (window_calculate known (w_fun c)); cbn [bind]; [congruence|intros H; apply K; congruence]).
Qed.
Lemma hidden_columns_err : forall windows holes schema e, hidden_columns frepr ident ext known windows schema holes = Err e -> e = CompileError.
Proof.
  intros windows. induction holes as [|[h c] holes IH]; intros schema e; cbn [hidden_columns]; [congruence|].
  destruct (window_column frepr ident ext known windows schema c) as [w|x] eqn:W; cbn [bind]; [apply IH|]. intros H. apply (window_column_err windows schema c). congruence.
Qed.
Lemma wcompile_item_err : forall windows cfg alias i e, wcompile_item frepr ident ext known windows cfg alias i = Err e -> e = CompileError.
Proof.
  intros windows cfg alias i e. destruct i as [v|n|x|c|x holes]; cbn [wcompile_item]; try congruence.
  - destruct (window_column frepr ident ext known windows (s_cols cfg) c) as [w|y] eqn:W; cbn [bind]; [congruence|]. intros H. apply (window_column_err windows (s_cols cfg) c). congruence.
  - destruct (hidden_columns frepr ident ext known windows (s_cols cfg) holes) as [w|y] eqn:W; cbn [bind]; [congruence|]. intros H. apply (hidden_columns_err windows holes (s_cols cfg)). congruence.
Qed.
(** A call which cannot be compiled, whatever the columns before it. *)
Definition bad (windows : list (text * window)) (c : wcall) : Prop := forall schema w, window_column frepr ident ext known windows schema c <> Ok w.
Lemma bad_refused : forall windows l cfg, (exists alias i c, In (alias, i) l /\ In c (wcalls i) /\ bad windows c) ->
  wcompile_items frepr ident ext known windows cfg l = Err CompileError.
Proof.
  intros windows. induction l as [|[alias i] l IH]; intros cfg (al & j & c & I & J & B); [destruct I|]. cbn [wcompile_items].
  destruct (wcompile_item frepr ident ext known windows cfg alias i) as [cfg'|e] eqn:E; cbn [bind]; [|f_equal; apply (wcompile_item_err windows cfg alias i e E)].
  destruct I as [I|I]; [|apply IH; exists al, j, c; auto]. assert (j = i) as -> by congruence. exfalso.
  destruct i as [v|n|x|k|x holes]; cbn [wcalls] in J; try contradiction; cbn [wcompile_item] in E.
  - destruct J as [->|[]]. destruct (window_column frepr ident ext known windows (s_cols cfg) c) as [w|y] eqn:W; [exact (B _ _ W)|discriminate E].
  - destruct (hidden_columns frepr ident ext known windows (s_cols cfg) holes) as [w|y] eqn:W; [|discriminate E]. clear E I. revert J W. generalize (s_cols cfg).
    induction holes as [|[h k] holes IHh]; intros schema J W; [destruct J|]. cbn [hidden_columns map] in *.
    destruct (window_column frepr ident ext known windows schema k) as [w'|y] eqn:W'; [|discriminate W]. cbn [bind] in W.
    destruct J as [J|J]; [cbn [snd] in J; subst k; exact (B _ _ W')|exact (IHh _ J W)].
Qed.
Lemma assoc_parse : forall l n, assoc n (parse_windows l) <> None -> In n (map fst l).
Proof.
  intros l n. unfold parse_windows.
  assert (G : forall d, assoc n (fold_left (fun d nw => dict_set (fst nw) (snd nw) d) l d) <> None -> assoc n d <> None \/ In n (map fst l)).
  { induction l as [|[m w] l IH]; intros d H; [left; exact H|]. cbn [fold_left fst snd map] in *. destruct (IH _ H) as [K|K]; [|right; right; exact K].
    rewrite Json_Proofs.assoc_dict_set in K. destruct (text_eqb n m) eqn:E; [right; left; symmetry; apply text_eqb_spec; exact E|left; exact K]. }
  intros H. destruct (G [] H) as [K|K]; [exfalso; apply K; reflexivity|exact K].
Qed.
(** A window name which the query does not define, DISTINCT in a function other than COUNT and a function which is neither an aggregate nor a
    window function are refused, wherever they stand. *)
Theorem window_query_refused : forall q alias i c, In (alias, i) (wq_items q) -> In c (wcalls i) ->
  (exists n, w_name c = Some n /\ ~ In n (map fst (wq_windows q))) \/
  (exists a, w_fun c = WAgg a /\ a_distinct a = true /\ a_fun a <> FCount) \/
  (exists n d args, w_fun c = WNamed n d args /\ (d = true \/ known n = false)) ->
  wcompile frepr ident ext known q = Err CompileError.
Proof.
  intros q alias i c I J H. apply bad_refused. exists alias, i, c. split; [exact I|split; [exact J|]]. intros schema w. unfold window_column.
  destruct H as [(n & Hn & Nn)|[(a & Fa & Da & Na)|(n & d & args & Fn & Hd)]].
  - rewrite Hn. destruct (assoc n (parse_windows (wq_windows q))) as [x|] eqn:A.
    + exfalso. apply Nn. apply assoc_parse. congruence.
    + destruct (window_values frepr ident ext (w_fun c)); cbn [bind]; discriminate.
  - rewrite Fa. cbn [window_values]. rewrite Da. destruct (a_fun a); cbn [andb negb bind]; congruence.
  - rewrite Fn. cbn [window_values window_calculate]. destruct Hd as [->|Hk]; [discriminate|]. rewrite Hk. destruct d; [discriminate|]. cbn [bind].
    destruct (match w_name c with Some _ => _ | None => _ end); cbn [bind]; discriminate.
Qed.

(** ** Frames, and what is added to a named window, are not read *)
Definition without_frame (w : window) : window := mkwindow (w_partition w) (w_order w) None.
Definition bare_call (c : wcall) : wcall :=
  mkwcall (w_fun c) (w_name c) (match w_name c with None => without_frame (w_inline c) | Some _ => mkwindow [] [] None end).
Definition bare_item (i : witem) : witem :=
  match i with WWin c => WWin (bare_call c) | WExpr e holes => WExpr e (map (fun h => (fst h, bare_call (snd h))) holes) | j => j end.
Definition bare_query (q : wquery) : wquery :=
  mkwquery (map (fun ai => (fst ai, bare_item (snd ai))) (wq_items q)) (map (fun nw => (fst nw, without_frame (snd nw))) (wq_windows q)).

Lemma parse_bare : forall l, parse_windows (map (fun nw => (fst nw, without_frame (snd nw))) l) = map (fun nw => (fst nw, without_frame (snd nw))) (parse_windows l).
Proof.
  intros l. unfold parse_windows. change (@nil (text * window)) with (map (fun nw : text * window => (fst nw, without_frame (snd nw))) []) at 1.
  generalize (@nil (text * window)). induction l as [|[n w] l IH]; intros d; [reflexivity|]. cbn [map fold_left fst snd]. rewrite <- IH. f_equal.
  induction d as [|[m v] d IHd]; [reflexivity|]. cbn [map dict_set fst snd]. destruct (text_eqb n m); [reflexivity|]. cbn [map fst snd]. rewrite IHd. reflexivity.
Qed.
Lemma column_bare : forall windows schema c,
  window_column frepr ident ext known (map (fun nw => (fst nw, without_frame (snd nw))) windows) schema (bare_call c) = window_column frepr ident ext known windows schema c.
Proof.
  intros windows schema c. unfold window_column, bare_call. cbn [w_fun w_name w_inline]. destruct (window_values frepr ident ext (w_fun c)); cbn [bind]; [|reflexivity].
  destruct (w_name c) as [n|]; [|reflexivity].
  assert (assoc n (map (fun nw => (fst nw, without_frame (snd nw))) windows) = option_map without_frame (assoc n windows)) as ->.
  { induction windows as [|[m w] l IH]; [reflexivity|]. cbn [map assoc fst snd]. destruct (text_eqb n m); [reflexivity|exact IH]. }
  destruct (assoc n windows); reflexivity.
Qed.
(** The query without its frames, and without what is added to named windows, is the same query. *)
Theorem frames_not_read : forall q, wcompile frepr ident ext known (bare_query q) = wcompile frepr ident ext known q.
Proof.
  intros q. unfold wcompile, bare_query. cbn [wq_items wq_windows]. rewrite parse_bare. generalize (parse_windows (wq_windows q)) (mkwconfig [] []). intros windows.
  induction (wq_items q) as [|[alias i] l IH]; intros cfg; [reflexivity|]. cbn [map wcompile_items fst snd].
  assert (K : wcompile_item frepr ident ext known (map (fun nw => (fst nw, without_frame (snd nw))) windows) cfg alias (bare_item i) = wcompile_item frepr ident ext known windows cfg alias i).
  { destruct i as [v|n|e|c|e holes]; try reflexivity; cbn [bare_item wcompile_item].
    - rewrite column_bare. reflexivity.
    - assert (H : forall schema, hidden_columns frepr ident ext known (map (fun nw => (fst nw, without_frame (snd nw))) windows) schema (map (fun h => (fst h, bare_call (snd h))) holes)
        = hidden_columns frepr ident ext known windows schema holes).
      { clear. induction holes as [|[h c] holes IHh]; intros schema; [reflexivity|]. cbn [map hidden_columns fst snd]. rewrite column_bare.
        destruct (window_column frepr ident ext known windows schema c); cbn [bind]; [apply IHh|reflexivity]. }
      rewrite H, map_map. reflexivity. }
  rewrite K. destruct (wcompile_item frepr ident ext known windows cfg alias i); cbn [bind]; [apply IH|reflexivity].
Qed.
End Correct.
Print Assumptions window_query_rows.
Print Assumptions window_query_correct.
Print Assumptions window_columns_in_order.
Print Assumptions window_query_refused.
Print Assumptions frames_not_read.

(** ** Examples and departures from SQL *)
Definition A := t "a". Definition B := t "b". Definition C := t "c".
Definition rank (v : val) : Z := match v with VInt z => z | _ => 0%Z end.
Definition le0 (a b : val) : bool := (rank a <=? rank b)%Z.
Lemma le0_total : total_preorder le0.
Proof. unfold le0. split; [intros a b; rewrite !Z.leb_le; lia|intros a b c; rewrite !Z.leb_le; lia]. Qed.
Definition known0 (n : text) : bool := text_eqb n (t "row_number").
Definition fn0 (n : text) (l : list (list val * list val)) (i : nat) : val := VInt (Z.of_nat i + 1).
Definition str0 (_ : val) : text := [].
Definition nest0 (_ : text) (_ : row) : val := VNone.
Definition value0 := sem num_text (sql_fn fr0 id0 no_ext no_lib).
Definition run0 (q : wquery) (rows : list row) : res (list (list (text * val))) :=
  do cfg <- wcompile fr0 id0 no_ext known0 q; run_wquery fr0 id0 no_ext no_lib str0 le0 nest0 fn0 cfg rows.
Definition r3 (x y z : Z) : row := fun n => if text_eqb n A then VInt x else if text_eqb n B then VInt y else if text_eqb n C then VInt z else VNone.
Definition sum_of (n : text) : aggregate := mkagg FSum false (Some (ECol n)).
Definition by_a_order_b : window := mkwindow [KeyCol false A] [(KeyCol false B, false)] None.
Definition hole := t "h0".
(** SELECT a, SUM(c) OVER (PARTITION BY a ORDER BY b) AS s, ROW_NUMBER() OVER w AS n, SUM(c) OVER () > 1 AS x FROM ... WINDOW w AS (ORDER BY b DESC) *)
Definition q1 : wquery := mkwquery
  [(A, WCol A); (t "s", WWin (mkwcall (WAgg (sum_of C)) None by_a_order_b));
   (t "n", WWin (mkwcall (WNamed (t "row_number") false []) (Some (t "w")) (mkwindow [] [] None)));
   (t "x", WExpr (EBin (t "gt") (ECol hole) (EConst (VInt 1))) [(hole, mkwcall (WAgg (sum_of C)) None (mkwindow [] [] None))])]
  [(t "w", mkwindow [] [(KeyCol false B, true)] None)].
Definition rows1 : list row := [r3 1 2 10; r3 2 5 20; r3 1 1 30].
Ltac nodup_text := repeat (apply NoDup_cons; [intros HIn; repeat (destruct HIn as [HIn|HIn]; [discriminate HIn|]); exact HIn|]); apply NoDup_nil.
Example q1_plain : plain_wquery known0 q1.
Proof.
  split; [cbn [q1 wq_windows map fst]; nodup_text|]. split.
  - change (NoDup [A; t "s"; t "n"; t "x"; hole]). nodup_text.
  - assert (KA : plain_wkey (wq_items q1) (KeyCol false A)).
    { split; [intros i [E|[E|[E|[E|[]]]]]; inversion E; reflexivity|]. intros [E|[]]; discriminate E. }
    assert (KB : plain_wkey (wq_items q1) (KeyCol false B)).
    { split; [intros i [E|[E|[E|[E|[]]]]]; discriminate E|]. intros [E|[]]; discriminate E. }
    assert (PS : plain_aggregate (sum_of C)) by (unfold plain_aggregate, sum_of; cbn; repeat split; try discriminate; intros e E; injection E as <-; constructor).
    unfold q1. cbn [wq_items]. repeat apply Forall_cons; try apply Forall_nil; (split; cbn [snd wcalls map]; [|try exact Logic.I]).
    + apply Forall_nil.
    + apply Forall_cons; [|apply Forall_nil]. split; [exists by_a_order_b|split; [intros H; exfalso; apply H; reflexivity|exact PS]].
      split; [reflexivity|split; [reflexivity|split; (apply Forall_cons; [assumption|apply Forall_nil])]].
    + apply Forall_cons; [|apply Forall_nil]. split; [exists (mkwindow [] [(KeyCol false B, true)] None)|split; [reflexivity|repeat split; apply Forall_nil]].
      split; [reflexivity|split; [reflexivity|split; [apply Forall_nil|apply Forall_cons; [exact KB|apply Forall_nil]]]].
    + apply Forall_cons; [|apply Forall_nil]. split; [exists (mkwindow [] [] None)|split; [intros H; exfalso; apply H; reflexivity|exact PS]].
      split; [reflexivity|split; [reflexivity|split; apply Forall_nil]].
    + split; [apply X_bin; constructor|]. intros n M. apply columns_mentions in M. cbn in M. destruct M as [<-|[]]. left. left. reflexivity.
Qed.
Example q1_runs : run0 q1 rows1 = Ok
  [[(A, VInt 1); (t "s", VInt 40); (t "n", VInt 2); (t "x", VInt 1)]; [(A, VInt 2); (t "s", VInt 20); (t "n", VInt 1); (t "x", VInt 1)];
   [(A, VInt 1); (t "s", VInt 30); (t "n", VInt 3); (t "x", VInt 1)]].
Proof. vm_compute. reflexivity. Qed.

(** The rows of this example meet the hypotheses. *)
Lemma int_rows_summable : forall (l : list row), l <> [] -> Forall (fun r => exists z, r C = VInt z) l ->
  summable FSum false (argument value0 (sum_of C) l).
Proof.
  intros l Ne H. split.
  - destruct l as [|r l]; [congruence|]. inversion H as [|? ? [z E] H']; subst. unfold argument. cbn [map sum_of a_arg nonnull filter].
    change (value0 r (ECol C)) with (r C). rewrite E. discriminate.
  - clear Ne. induction H as [|r l [z E] H [s IH]]; [exists 0%Z; apply sums_nil|].
    unfold argument in *. cbn [map sum_of a_arg] in *. change (value0 r (ECol C)) with (r C). rewrite E. exists (z + s)%Z. apply sums_cons; [reflexivity|exact IH].
Qed.
Example q1_fits : rows_fit fr0 id0 no_ext no_lib num_text le0 sql_frame q1 rows1 /\ no_ties fr0 id0 no_ext no_lib num_text le0 q1 rows1.
Proof.
  assert (AL : forall x, In x (numbered rows1) -> exists z, snd x C = VInt z).
  { intros x [<-|[<-|[<-|[]]]]; eexists; reflexivity. }
  split.
  - intros c alias i k w Ic I J W. split.
    + destruct I as [I|[I|[I|[I|[]]]]]; injection I as <- <-; (destruct J as [<-|[]] || destruct J); injection W as <-; destruct Ic as [<-|[<-|[<-|[]]]]; vm_compute; reflexivity.
    + intros a Fk.
      assert (Ea : a = sum_of C).
      { destruct I as [I|[I|[I|[I|[]]]]]; injection I as <- <-; (destruct J as [<-|[]] || destruct J); cbn [w_fun] in Fk; (discriminate Fk || (inversion Fk; reflexivity)). }
      assert (Kc : In c (partition value0 equal_keys w rows1 (snd c))).
      { apply filter_In. split; [exact Ic|].
        destruct I as [I|[I|[I|[I|[]]]]]; injection I as <- <-; (destruct J as [<-|[]] || destruct J); injection W as <-; destruct Ic as [<-|[<-|[<-|[]]]]; vm_compute; reflexivity. }
      subst a. split.
      * intros _. apply (int_rows_summable (map snd (partition value0 equal_keys w rows1 (snd c)))).
        -- intros Z. apply map_eq_nil in Z. exact (eq_ind _ (fun l => In c l) Kc _ Z).
        -- apply Forall_forall. intros r Ir. apply in_map_iff in Ir as (x & <- & Ix). apply AL. apply filter_In in Ix. apply Ix.
      * intros bef aft _ SA. apply (int_rows_summable (map snd (sql_frame (before_or_tied value0 le0 w) bef c aft))).
        -- intros Z. apply map_eq_nil in Z. assert (Ic' : In c (sql_frame (before_or_tied value0 le0 w) bef c aft)).
           { apply filter_In. split; [apply in_app_iff; right; left; reflexivity|].
             assert (TW : total_preorder (before_or_tied value0 le0 w)) by (apply lex_total; exact le0_total). destruct (proj1 TW c c) as [H|H]; exact H. }
           exact (eq_ind _ (fun l => In c l) Ic' _ Z).
        -- apply Forall_forall. intros r Ir. apply in_map_iff in Ir as (x & <- & Ix). apply AL. apply filter_In in Ix as [Ix _].
           destruct SA as [P _]. apply (Permutation_in x (Permutation_sym P)) in Ix. apply filter_In in Ix. apply Ix.
  - intros alias i k w a x y I J W Fk O Ix Iy K L1 L2.
    destruct I as [I|[I|[I|[I|[]]]]]; injection I as <- <-; (destruct J as [<-|[]] || destruct J); cbn [w_fun] in Fk; try discriminate Fk; injection W as <-; try (exfalso; apply O; reflexivity).
    destruct Ix as [<-|[<-|[<-|[]]]], Iy as [<-|[<-|[<-|[]]]]; try reflexivity; exfalso; first [discriminate K|discriminate L1|discriminate L2].
Qed.

Definition one_window (fn : wfun) (w : window) : wquery := mkwquery [(t "s", WWin (mkwcall fn None w))] [].
Lemma sum_value : forall rows vs z, argument value0 (sum_of C) rows = map VInt vs -> vs <> [] -> z = fold_right Z.add 0%Z vs ->
  aggregate_value str0 FSum false (argument value0 (sum_of C) rows) (VInt z).
Proof.
  intros rows vs z E Ne ->. rewrite E. apply A_sum.
  - destruct vs; [congruence|discriminate].
  - clear. induction vs as [|v vs IH]; [apply sums_nil|]. cbn [map fold_right]. apply sums_cons; [reflexivity|exact IH].
Qed.

(** Rows tied in ORDER BY: each of them gets the sum up to itself, not the sum including its ties. *)
Theorem running_sum_of_ties_refuted : exists rows c x y,
  let w := mkwindow [] [(KeyCol false B, false)] None in
  hd_error (numbered rows) = Some c /\
  run0 (one_window (WAgg (sum_of C)) w) rows = Ok [[(t "s", x)]; [(t "s", y)]] /\
  x = VInt 10 /\ call_value str0 value0 equal_keys le0 fn0 (frame_of w) rows c w (WAgg (sum_of C)) (VInt 30).
Proof.
  exists [r3 1 1 10; r3 1 1 20], (0, r3 1 1 10), (VInt 10), (VInt 30). split; [reflexivity|]. split; [vm_compute; reflexivity|]. split; [reflexivity|].
  apply V_running with (bef := []) (aft := [(1, r3 1 1 20)]); [discriminate| |].
  - split; [apply Permutation_refl|]. split; [|reflexivity]. repeat constructor.
  - apply (sum_value _ [10%Z; 20%Z]); [reflexivity|discriminate|reflexivity].
Qed.
(** ROWS BETWEEN CURRENT ROW AND CURRENT ROW has no effect. *)
Theorem frame_refuted : exists rows c x y,
  let w := mkwindow [] [(KeyCol false B, false)] (Some (Some 0, Some 0)) in
  nth_error (numbered rows) 1 = Some c /\
  run0 (one_window (WAgg (sum_of C)) w) rows = Ok [[(t "s", x)]; [(t "s", y)]] /\
  y = VInt 30 /\ call_value str0 value0 equal_keys le0 fn0 (frame_of w) rows c w (WAgg (sum_of C)) (VInt 20).
Proof.
  exists [r3 1 1 10; r3 1 2 20], (1, r3 1 2 20), (VInt 10), (VInt 30). split; [reflexivity|]. split; [vm_compute; reflexivity|]. split; [reflexivity|].
  apply V_running with (bef := [(0, r3 1 1 10)]) (aft := []); [discriminate| |].
  - split; [apply Permutation_refl|]. split; [|reflexivity]. repeat constructor.
  - apply (sum_value _ [20%Z]); [reflexivity|discriminate|reflexivity].
Qed.
(** SUM(c) OVER (w ORDER BY b) ... WINDOW w AS (PARTITION BY a): the order is not read, every row gets the sum of the partition. *)
Theorem extended_window_refuted : exists rows c x y,
  let k := mkwcall (WAgg (sum_of C)) (Some (t "w")) (mkwindow [] [(KeyCol false B, false)] None) in
  let windows := [(t "w", mkwindow [KeyCol false A] [] None)] in
  hd_error (numbered rows) = Some c /\
  run0 (mkwquery [(t "s", WWin k)] windows) rows = Ok [[(t "s", x)]; [(t "s", y)]] /\
  x = VInt 30 /\ exists w, sql_window windows k = Some w /\ call_value str0 value0 equal_keys le0 fn0 (frame_of w) rows c w (w_fun k) (VInt 10).
Proof.
  exists [r3 1 1 10; r3 1 2 20], (0, r3 1 1 10), (VInt 30), (VInt 30). split; [reflexivity|]. split; [vm_compute; reflexivity|]. split; [reflexivity|].
  eexists. split; [reflexivity|]. apply V_running with (bef := []) (aft := [(1, r3 1 2 20)]); [discriminate| |].
  - split; [apply Permutation_refl|]. split; [|reflexivity]. repeat constructor.
  - apply (sum_value _ [10%Z]); [reflexivity|discriminate|reflexivity].
Qed.
(** The names of items compiled before are taken for columns: the same two items, exchanged, number the rows differently. *)
Theorem window_independent_of_item_order_refuted : exists i j rows,
  run0 (mkwquery [i; j] []) rows = Ok [[(A, VInt 2); (t "n", VInt 2)]; [(A, VInt 1); (t "n", VInt 1)]] /\
  run0 (mkwquery [j; i] []) rows = Ok [[(t "n", VInt 1); (A, VInt 2)]; [(t "n", VInt 2); (A, VInt 1)]].
Proof.
  exists (A, WCol B), (t "n", WWin (mkwcall (WNamed (t "row_number") false []) None (mkwindow [] [(KeyCol false A, false)] None))), [r3 1 2 0; r3 2 1 0].
  split; vm_compute; reflexivity.
Qed.
(** In an expression around window functions a column which is not an item reads as NULL: SELECT IFNULL(b, SUM(c) OVER ()) AS x. *)
Theorem bare_column_around_window_refuted : exists i rows c,
  numbered rows = [c] /\ run0 (mkwquery [(t "x", i)] []) rows = Ok [[(t "x", VInt 10)]] /\
  witem_value str0 value0 equal_keys le0 fn0 sql_frame [] rows c i (VInt 5).
Proof.
  exists (WExpr (EIfNull (ECol B) (ECol hole)) [(hole, mkwcall (WAgg (sum_of C)) None (mkwindow [] [] None))]), [r3 1 5 10], (0, r3 1 5 10).
  split; [reflexivity|]. split; [vm_compute; reflexivity|].
  apply (V_expr str0 value0 equal_keys le0 fn0 sql_frame [] [r3 1 5 10] (0, r3 1 5 10) (EIfNull (ECol B) (ECol hole)) [(hole, mkwcall (WAgg (sum_of C)) None (mkwindow [] [] None))] [(hole, VInt 10)]).
  apply Forall2_cons; [|apply Forall2_nil]. split; [reflexivity|]. eexists. split; [reflexivity|]. apply V_whole; [reflexivity|].
  apply (sum_value _ [10%Z]); [reflexivity|discriminate|reflexivity].
Qed.
(** The columns of expressions around window functions come last: SELECT SUM(c) OVER () > 1 AS x, a. *)
Theorem window_expression_moved_refuted : exists q rows, plain_wquery known0 q /\ map fst (wq_items q) = [t "x"; A] /\
  run0 q rows = Ok [[(A, VInt 1); (t "x", VInt 1)]].
Proof.
  exists (mkwquery [(t "x", WExpr (EBin (t "gt") (ECol hole) (EConst (VInt 1))) [(hole, mkwcall (WAgg (sum_of C)) None (mkwindow [] [] None))]); (A, WCol A)] []), [r3 1 5 10].
  split; [|split; [reflexivity|vm_compute; reflexivity]].
  split; [apply NoDup_nil|]. split.
  - change (NoDup [t "x"; A; hole]). nodup_text.
  - cbn [wq_items]. repeat apply Forall_cons; try apply Forall_nil; (split; cbn [snd wcalls map]; [|try exact Logic.I]); try apply Forall_nil.
    + apply Forall_cons; [|apply Forall_nil]. split; [exists (mkwindow [] [] None)|split; [intros H; exfalso; apply H; reflexivity|]].
      * split; [reflexivity|split; [reflexivity|split; apply Forall_nil]].
      * cbn [w_fun]. unfold plain_aggregate, sum_of. cbn. repeat split; try discriminate. intros e E. injection E as <-. constructor.
    + split; [apply X_bin; constructor|]. intros n M. apply columns_mentions in M. cbn in M. destruct M as [<-|[]]. left. left. reflexivity.
Qed.
Print Assumptions running_sum_of_ties_refuted.
Print Assumptions frame_refuted.
Print Assumptions extended_window_refuted.
Print Assumptions window_independent_of_item_order_refuted.
Print Assumptions bare_column_around_window_refuted.
Print Assumptions window_expression_moved_refuted.

(** C234, C239: SELECTs with FROM a, b, ... WHERE ... of the class claimed compile and run. *)
From Coq Require Import SpecFloat.
From Verif Require Import Base PyVal Utils_Model Calc_Model Calc_Proofs Expr_Syntax Expr_Model Expr_Spec Expr_Proofs Expr_Props
  Having_Model Having_Spec Having_Proofs Having_Props Agg_Spec Reduce_Spec Group_Syntax Group_Model Group_Spec Group_Proofs Group_Props
  Inner_Syntax Inner_Model Inner_Spec Inner_Proofs Inner_Props Whole_Syntax Cast_Syntax Whole_Model Whole_Spec Whole_Proofs
  Whole_Props Whole_Cases Select_Model Select_Spec Select_Proofs Select_Props Joins_Syntax Joins_Spec Joins_Model Joins_Proofs Joins_Rewrites Joins_Accept Joins_Props
  Joinsel_Syntax Joinsel_Spec Joinsel_Model Joinsel_Proofs Joinsel_Props Joinsel_Cases Joingrp_Syntax Joingrp_Spec Joingrp_Model Joingrp_Proofs Joingrp_Props Joingrp_Cases Joingrp_Accept.
Open Scope Z_scope.

(** The condition reads only the tables [ts]. *)
Definition within (ts : list text) (a : atom) : bool := forallb (fun c => existsb (fun tb => tab_is tb c) ts) (acols a).
(** WHERE ties no column of a further table twice to the tables before it. *)
Fixpoint tied_once (w : list atom) (before ts : list text) : Prop :=
  match ts with
  | [] => True
  | tb :: r => NoDup (flat_map (key_column tb) (filter (within (tb :: before)) w)) /\ tied_once w (before ++ [tb]) r
  end.
(** What C234 asks of FROM a, b, ... WHERE ... *)
Definition comma_joins (p : text) (ts : list text) (q : Joins_Syntax.query) : Prop :=
  qfrom q = p :: ts /\ qjoins q = [] /\ ts <> [] /\ tied (qwhere q) [p] ts /\ tied_once (qwhere q) [p] ts /\
  (forall a, In a (qwhere q) -> forall c, In c (acols a) -> ctab c <> None) /\
  (forall o l r cs f, In (ACmp o l r) (qwhere q) -> l = OExpr cs f \/ r = OExpr cs f -> forall c, In c cs -> ctab c = Some p).
(** The tables that are read are in FROM. *)
Definition reads_only (p : text) (ts : list text) (g : jgroup) : Prop :=
  (forall tb, read_by (g_rest g) tb -> tb = p \/ In tb ts) /\
  (forall a c tb, In a (qwhere (g_from g)) -> In c (acols a) -> ctab c = Some tb -> tb = p \/ In tb ts).

Lemma flat_filter : forall (A B : Type) (k : A -> list B) (f g : A -> bool) l, (forall x, In x l -> g x = true -> f x = true) ->
  NoDup (flat_map k (filter f l)) -> NoDup (flat_map k (filter g l)) /\ forall y, In y (flat_map k (filter g l)) -> In y (flat_map k (filter f l)).
Proof.
  intros A B k f g l. induction l as [|x l IH]; intros H N; [split; [exact N|intros y I; exact I]|]. cbn [filter] in *.
  assert (H' : forall z, In z l -> g z = true -> f z = true) by (intros z I; apply H; right; exact I).
  destruct (f x) eqn:F; destruct (g x) eqn:G.
  - cbn [flat_map] in *. assert (N2 : NoDup (flat_map k (filter f l))) by (clear - N; induction (k x) as [|b bs IH]; [exact N|apply IH; inversion N; assumption]).
    destruct (IH H' N2) as (I1 & I2). split; [|intros y I; apply in_app_or in I; apply in_or_app; destruct I as [I|I]; [left; exact I|right; exact (I2 y I)]].
    clear - N I1 I2. induction (k x) as [|b bs IH]; [exact I1|]. cbn in *. inversion N as [|? ? N1 N2]; subst. apply NoDup_cons; [|exact (IH N2)].
    intros I. apply N1. apply in_app_or in I. apply in_or_app. destruct I as [I|I]; [left; exact I|right; exact (I2 b I)].
  - cbn [flat_map] in N. assert (N2 : NoDup (flat_map k (filter f l))) by (clear - N; induction (k x) as [|b bs IH]; [exact N|apply IH; inversion N; assumption]).
    destruct (IH H' N2) as (I1 & I2). split; [exact I1|]. intros y I. cbn [flat_map]. apply in_or_app. right. exact (I2 y I).
  - rewrite (H x (or_introl eq_refl) G) in F. discriminate.
  - exact (IH H' N).
Qed.
Lemma const_keyless : forall tb can a, is_const tb can a = true -> key_column tb a = [].
Proof.
  intros tb can a H. unfold is_const in H. destruct a as [o l r|l f|cs f]; [|reflexivity..]. cbn [classify] in H.
  destruct (on_value tb can l r) as [v|] eqn:E; [|discriminate]. destruct (ocolumns v) as [|x xs] eqn:Ev; [|discriminate].
  destruct o; try reflexivity. cbn [key_column]. unfold on_value in E.
  destruct l as [c|cs f]; destruct r as [c'|cs' f']; cbn [col_of] in E; repeat match type of E with context [is_tab tb ?x] => rewrite (is_tab_is tb x) in E end.
  - exfalso. assert (V : v = OCol c \/ v = OCol c').
    { destruct (tab_is tb c), (tab_is tb c'), can; try destruct (in_can _ c'); try destruct (in_can _ c); inversion E; auto. }
    destruct V as [-> | ->]; discriminate Ev.
  - destruct (tab_is tb c); [|reflexivity]. destruct can; injection E as <-; cbn [ocolumns] in Ev; subst cs'; reflexivity.
  - destruct (tab_is tb c'); [|destruct cs; reflexivity]. destruct can; injection E as <-; cbn [ocolumns] in Ev; subst cs; reflexivity.
  - discriminate.
Qed.

Section Comma.
Variable p : text.
Variable w : list atom.
Hypothesis Ex0 : forall o l r cs f, In (ACmp o l r) w -> l = OExpr cs f \/ r = OExpr cs f -> forall c, In c cs -> ctab c = Some p.

Lemma on_within : forall tb can a, In p can -> In a w -> is_on tb can a = true -> within (tb :: can) a = true.
Proof.
  intros tb can a Ip Ia H. destruct can as [|c0 can0]; [destruct Ip|]. unfold is_on in H. destruct a as [o l r|l f|cs f]; try discriminate H. cbn [classify] in H.
  destruct (on_value tb (c0 :: can0) l r) as [v|] eqn:E; [|discriminate]. clear H.
  assert (In_ : forall c x, ctab c = Some x -> In x (tb :: c0 :: can0) -> existsb (fun tb0 => tab_is tb0 c) (tb :: c0 :: can0) = true).
  { intros c x Ec I. apply existsb_exists. exists x. split; [exact I|]. unfold tab_is. rewrite Ec. apply text_eqb_refl. }
  assert (T : forall c, is_tab tb c = true -> existsb (fun tb0 => tab_is tb0 c) (tb :: c0 :: can0) = true) by (intros c H; apply is_tab_true in H; apply (In_ c tb H); left; reflexivity).
  assert (Cn : forall c, in_can (c0 :: can0) c = true -> existsb (fun tb0 => tab_is tb0 c) (tb :: c0 :: can0) = true) by (intros c H; apply in_can_spec in H; destruct H as (x & Ec & I); apply (In_ c x Ec); right; exact I).
  assert (Xp : forall cs f, l = OExpr cs f \/ r = OExpr cs f -> forall c, In c cs -> existsb (fun tb0 => tab_is tb0 c) (tb :: c0 :: can0) = true).
  { intros cs f L c I. apply (In_ c p (Ex0 o l r cs f Ia L c I)). right. exact Ip. }
  unfold within. apply forallb_forall. intros c I. cbn [acols] in I. unfold on_value in E.
  destruct l as [cl|cs f]; destruct r as [cr|cs' f']; cbn [col_of ocols] in *.
  - destruct (is_tab tb cl) eqn:Tl; [destruct (in_can (c0 :: can0) cr) eqn:Cr|].
    + destruct I as [<-|[<-|[]]]; [exact (T _ Tl)|exact (Cn _ Cr)].
    + destruct (is_tab tb cr) eqn:Tr; [|discriminate]. destruct I as [<-|[<-|[]]]; [exact (T _ Tl)|exact (T _ Tr)].
    + destruct (is_tab tb cr) eqn:Tr; [|discriminate]. destruct (in_can (c0 :: can0) cl) eqn:Cl; [|discriminate]. destruct I as [<-|[<-|[]]]; [exact (Cn _ Cl)|exact (T _ Tr)].
  - destruct (is_tab tb cl) eqn:Tl; [|discriminate]. destruct I as [<-|I]; [exact (T _ Tl)|exact (Xp cs' f' (or_intror eq_refl) c I)].
  - destruct (is_tab tb cr) eqn:Tr; [|discriminate]. apply in_app_or in I. destruct I as [I|[<-|[]]]; [exact (Xp cs f (or_introl eq_refl) c I)|exact (T _ Tr)].
  - discriminate.
Qed.
Lemma multi_tabs : forall ts can, map jtab (multi_joins can w ts) = ts.
Proof. induction ts as [|tb ts IH]; intros can; [reflexivity|]. cbn [multi_joins map jtab]. f_equal. apply IH. Qed.
Lemma multi_left : forall ts can j, In j (multi_joins can w ts) -> jside j = SLeft /\ jkind j = KNone.
Proof. induction ts as [|tb ts IH]; intros can j Hj; [destruct Hj|]. cbn [multi_joins] in Hj. destruct Hj as [<-|Hj]; [split; reflexivity|]. exact (IH _ j Hj). Qed.
Lemma multi_on : forall ts can j a, In j (multi_joins can w ts) -> In a (jon j) -> In a w.
Proof.
  induction ts as [|tb ts IH]; intros can j a Hj Ha; [destruct Hj|]. cbn [multi_joins] in Hj. destruct Hj as [<-|Hj]; [|exact (IH _ j a Hj Ha)].
  cbn [jon] in Ha. apply in_app_or in Ha. destruct Ha as [Ha|Ha]; apply filter_In in Ha; exact (proj1 Ha).
Qed.
Lemma multi_single : forall ts can, In p can -> tied_once w can ts -> forall j, In j (multi_joins can w ts) -> single_keys j.
Proof.
  induction ts as [|tb ts IH]; intros can Ip T j Hj; [destruct Hj|]. cbn [multi_joins tied_once] in *. destruct T as (T1 & T2).
  destruct Hj as [<-|Hj]; [|apply (IH (can ++ [tb])); [apply in_or_app; left; exact Ip|exact T2|exact Hj]].
  unfold single_keys. cbn [jtab jon]. rewrite flat_map_app.
  assert (C : flat_map (key_column tb) (const_atoms tb can w) = []).
  { unfold const_atoms. clear. induction w as [|a l IH]; [reflexivity|]. cbn [filter]. destruct (is_const tb can a) eqn:E; [|exact IH]. cbn [flat_map]. rewrite (const_keyless _ _ _ E). exact IH. }
  rewrite C, app_nil_r. refine (proj1 (flat_filter _ _ (key_column tb) (within (tb :: can)) (is_on tb can) w _ T1)). intros a Ia H. exact (on_within tb can a Ip Ia H).
Qed.
Lemma tied_neq : forall ts can, In p can -> tied w can ts -> ~ In p ts.
Proof.
  induction ts as [|tb ts IH]; intros can I T J0; [destruct J0|]. cbn [tied] in T. destruct T as (T1 & _ & T3). destruct J0 as [->|J]; [contradiction|].
  apply (IH (can ++ [tb])); [apply in_or_app; left; exact I|exact T3|exact J].
Qed.
(** The rewrite makes LEFT JOINs of the further tables, and these compile. *)
Lemma comma_shape : forall fuel ts, ts <> [] -> optimize fuel (Query (p :: ts) [] w) = Some (Query [p] (multi_joins [p] w ts) w).
Proof.
  intros fuel ts Ne. set (q := Query [p] (multi_joins [p] w ts) w). unfold optimize. assert (multi_select (Query (p :: ts) [] w) = q) as -> by (destruct ts; [congruence|reflexivity]).
  rewrite no_right by (intros j Hj E; destruct (multi_left _ _ j Hj); congruence).
  rewrite no_inner by (intros j Hj E; destruct (multi_left _ _ j Hj); congruence). now destruct (qjoins q).
Qed.
Lemma comma_joins_run : forall cmpv d ts es, tied_once w [p] ts -> (forall a, In a w -> forall c, In c (acols a) -> ctab c <> None) ->
  exists r, run_joins cmpv d p (multi_joins [p] w ts) es = Ok r.
Proof.
  intros cmpv d ts es T Qu. apply run_joins_accepts.
  - intros j I. destruct (multi_left _ _ j I) as (E1 & E2). unfold join_type_ok. rewrite E1, E2. reflexivity.
  - intros j a I Ia c Ic. exact (Qu a (multi_on _ _ j a I Ia) c Ic).
  - intros j I. exact (multi_single ts [p] (or_introl eq_refl) T j I).
Qed.
End Comma.

(** C234 *)
Theorem comma_select_accepted : forall cmpv d leK p fuel aliased st ts, p <> [] -> comma_joins p ts (j_query st) ->
  all_selected ts st -> reads_known st (p :: ts) -> orderable p st ->
  exists l, run_joinsel cmpv leK d fuel aliased st = Some (Ok l).
Proof.
  intros cmpv d leK p fuel aliased st ts Np (Hf & Hj & Ne & Ti & To & Qu & Ex0) Sel (K1 & K2) O. destruct (j_query st) as [fr js0 w] eqn:Eq. cbn [qfrom qjoins qwhere] in *. subst fr js0.
  assert (S : exists js, optimize fuel (j_query st) = Some (Query [p] js w) /\ map jtab js = ts /\ forall es, exists r, run_joins cmpv d p js es = Ok r).
  { exists (multi_joins [p] w ts). rewrite Eq. split; [exact (comma_shape p w fuel ts Ne)|]. split; [apply multi_tabs|]. intros es. exact (comma_joins_run p w Ex0 cmpv d ts es To Qu). }
  destruct S as (js & Ho & Tabs & RJ). unfold run_joinsel. rewrite Ho. unfold run_compiled. cbn [qfrom qjoins qwhere]. destruct (RJ []) as (x0 & ->). cbn [bind]. cbv zeta.
  set (need := tables_of _). assert (N : forall tb, In tb need -> In tb (p :: map jtab js)).
  { rewrite Tabs. intros tb I. apply tables_in in I. destruct I as (c & I & E). apply in_app_or in I. destruct I as [I|I].
    - apply in_flat_map in I. destruct I as ([n o] & X & I). exact (K1 n o c tb X I E).
    - apply in_flat_map in I. destruct I as (a & Ia & I). apply filter_In in Ia. destruct Ia as [Ia _]. exact (K2 a c tb Ia I E). }
  rewrite (known_ok _ _ _ N). destruct (order_accepts cmpv p aliased (Query [p] js w) st Np O) as (k & ->). cbn [bind].
  destruct (needed_all js need) as (rest & ->).
  { intros j I. assert (J : In (jtab j) ts) by (rewrite <- Tabs; apply in_map; exact I).
    destruct (Sel (jtab j) J) as (n & o & IO & c & Ic & Ec). unfold need, tables_of. apply in_flat_map. exists c. split.
    - apply in_or_app. left. apply in_flat_map. exists (n, o). split; [exact IO|exact Ic].
    - rewrite Ec. left. reflexivity. }
  cbn [fst]. match goal with |- context [run_joins cmpv d p ?js ?es] => destruct (RJ es) as (es' & ->) end. cbn [bind]. eauto.
Qed.
Print Assumptions comma_select_accepted.

(** C239 *)
Theorem comma_grouped_accepted : forall cmpv d p frepr ident ext lib str_of pick nested raw state_name other rematch leK tt fuel aliased g ts,
  null_rejecting cmpv -> eq_symmetric cmpv -> ext (t "neg") = None -> total_preorder leK ->
  (forall a b, pyeq a b = true -> leK a b = true /\ leK b a = true) -> (forall rs, rs <> [] -> In (pick rs) rs) -> (forall p q, state_name p = state_name q -> p = q) ->
  comma_joins p ts (g_from g) ->
  (forall tb, In tb ts -> read_by (g_rest g) tb) -> reads_only p ts g -> (forall a, In a (qwhere (g_from g)) -> upright a) ->
  grouped_over p g -> (forall m alias e, In (alias, e) (st_items (g_rest g)) -> ~ mentions (state_name m) e) ->
  summable_groups tt (sql_fn frepr ident ext lib) equal_keys (g_rest g) (joined cmpv p d (g_from g)) ->
  exists l, run_joingrp cmpv frepr ident ext lib str_of pick nested raw state_name other rematch leK d fuel aliased g = Some (Ok l).
Proof.
  intros cmpv d p frepr ident ext lib str_of pick nested raw state_name other rematch leK tt fuel aliased g ts NR SY NN TK EQ HP INJ (Hf & Hj & Ne & Ti & To & Qu & Ex0) Sel (K1 & K2) Up GO FR SG.
  destruct (g_from g) as [fr js w] eqn:Eq. cbn [qfrom qjoins qwhere] in *. subst fr js.
  pose proof (comma_shape p w fuel ts Ne) as Ho. set (q := Query [p] (multi_joins [p] w ts) w) in *. destruct (comma_joins_run p w Ex0 cmpv d ts [] To Qu) as (x0 & E0).
  pose proof (tied_neq p w ts [p] (or_introl eq_refl) Ti) as Np.
  destruct (grouped_runs cmpv frepr ident ext lib tt str_of pick nested raw state_name other rematch leK d p SY NN TK EQ HP INJ aliased g q x0 GO FR eq_refl) as (es & Ex & G);
    try assumption; cbn [q qjoins qwhere].
  - intros j I E. apply Np. rewrite <- (multi_tabs w ts [p]). rewrite <- E at 1. apply in_map. exact I.
  - intros j I. apply Sel. rewrite <- (multi_tabs w ts [p]). apply in_map. exact I.
  - rewrite Eq. intros c [X|(j & a & I & Ia & X)]; [left; exact X|]. left. cbn [qwhere]. exists a. split; [exact (multi_on w ts [p] j a I Ia)|exact X].
  - apply known_ok. rewrite multi_tabs. intros tb I. apply tables_in in I. destruct I as (c & I & E).
    assert (J : tb = p \/ In tb ts); [|destruct J as [->|J]; [left; reflexivity|right; exact J]].
    apply in_app_or in I. destruct I as [I|I].
    + apply in_map_iff in I. destruct I as (m & <- & I). apply K1. exists m. split; [exact E|]. unfold items_read in I. apply in_app_or in I. destruct I as [I|I]; apply in_flat_map in I.
      * destruct I as ([n e] & Ie & I). left. exists n, e. split; [exact Ie|]. apply columns_mentions. exact I.
      * destruct I as (k & Ik & I). right. exists k. split; [exact Ik|]. destruct k as [b m'|e]; cbn [key_reads column_of_key] in *; [destruct I as [->|[]]; reflexivity|apply columns_mentions; exact I].
    + cbn [q qwhere] in I. apply in_flat_map in I. destruct I as (a & Ia & I). apply filter_In in Ia. destruct Ia as [Ia _]. apply (K2 a c tb); [|exact I|exact E]. exact Ia.
  - assert (CC : es = sql_query cmpv p d (Query (p :: ts) [] w)).
    { apply (comma_joins_correct cmpv d fuel p ts w es NR SY Ne Ti Qu Ex0). unfold Joins_Model.run_query. rewrite Ho, Ex. reflexivity. }
    rewrite CC in G. destruct (G SG) as (l & R & _). exists l. unfold run_joingrp. rewrite Eq, Ho, R. reflexivity.
Qed.
Print Assumptions comma_grouped_accepted.

(** The statements of the examples are of this kind. *)
Example comma_ab : comma_joins ta [tb] (Query [ta; tb] [] [eq_ab]).
Proof.
  unfold comma_joins. cbn [qfrom qjoins qwhere tied tied_once]. split; [reflexivity|]. split; [reflexivity|]. split; [discriminate|].
  split; [split; [intros [E|[]]; discriminate|]; split; [|exact Logic.I]; exists CEq, (cc tb id_), (cc ta id_), (Col (Some tb) id_), (cc ta id_); split; [now left|]; split; [reflexivity|]; split; [left; split; reflexivity|]; exists ta; split; [reflexivity|now left]|].
  split; [split; [|exact Logic.I]; vm_compute; apply NoDup_cons; [intros []|apply NoDup_nil]|].
  split; [intros a [<-|[]] c [<-|[<-|[]]]; discriminate|]. intros o x y cs f [E|[]] [E1|E1]; injection E as <- <- <-; discriminate E1.
Qed.
(** The chain a.id = b.id AND b.id = c.id ties each table once. *)
Example chain_once : tied_once [eq_ab; ACmp CEq (cc tc id_) (cc tb id_)] [ta] [tb; tc].
Proof. cbn [tied_once]. split; [|split; [|exact Logic.I]]; vm_compute; apply NoDup_cons; [intros []|apply NoDup_nil|intros []|apply NoDup_nil]. Qed.
Example comma_accepted : exists l, run1 twos st_comma = Some (Ok l).
Proof.
  apply (comma_select_accepted icmp twos leq0 ta 10 true st_comma [tb]).
  - discriminate.
  - exact comma_ab.
  - intros x [<-|[]]. exists x_, (cc tb x_). split; [right; left; reflexivity|]. exists (Col (Some tb) x_). split; [left; reflexivity|reflexivity].
  - split.
    + intros n o c x [E|[E|[]]] I Ec; unfold item in E; injection E as <- <-; cbn [ocols cc] in I; destruct I as [<-|[]]; cbn [ctab] in Ec; [left|right; left]; congruence.
    + intros a c x [<-|[]] [<-|[<-|[]]] E; cbn [ctab] in E; [right; left|left]; congruence.
  - right. intros c desc [E|[]]. injection E as <- <-. right. left. reflexivity.
Qed.
Example comma_grouped_reads : reads_only ta [tb] g_comma.
Proof.
  destruct left_reads_known as (H1 & H2). split; [exact H1|]. intros a c tb0 [<-|Ia] I E; [|exact (H2 a c tb0 Ia I E)].
  destruct I as [<-|[<-|[]]]; cbn [ctab] in E; [right; left|left]; congruence.
Qed.
Example comma_grouped_ab : comma_joins ta [tb] (g_from g_comma).
Proof.
  unfold comma_joins. cbn [g_comma g_from qfrom qjoins qwhere tied tied_once]. split; [reflexivity|]. split; [reflexivity|]. split; [discriminate|].
  split; [split; [intros [E|[]]; discriminate|]; split; [|exact Logic.I]; exists CEq, (cc tb id_), (cc ta id_), (Col (Some tb) id_), (cc ta id_); split; [now left|]; split; [reflexivity|]; split; [left; split; reflexivity|]; exists ta; split; [reflexivity|now left]|].
  split; [split; [|exact Logic.I]; vm_compute; apply NoDup_cons; [intros []|apply NoDup_nil]|].
  split.
  - intros a [<-|[<-|[]]] c I; cbn in I; [destruct I as [<-|[<-|[]]]|destruct I as [<-|[]]]; discriminate.
  - intros o x y cs f [E|[E|[]]] E1 c I; injection E as <- <- <-; destruct E1 as [E1|E1]; try discriminate E1; injection E1 as <- <-; destruct I.
Qed.

(** Lemmas for Joincol_Props: collapsed rows of any kind of source. *)
From Coq Require Import SpecFloat Permutation Sorting.Sorted.
From Verif Require Import Base PyVal Utils_Model Calc_Model Expr_Syntax Expr_Model Expr_Spec Expr_Proofs Expr_Props
  Having_Model Having_Spec Having_Proofs Having_Props Agg_Spec Reduce_Spec Group_Syntax Group_Model Group_Spec Group_Proofs Group_Props
  Inner_Syntax Inner_Model Inner_Spec Inner_Proofs Inner_Props Select_Model Select_Spec Select_Proofs Select_Props Whole_Syntax Cast_Syntax Whole_Model Whole_Spec Whole_Proofs
  Whole_Props Collapse_Model Collapse_Spec Collapse_Props Joingrp_Proofs.
Open Scope Z_scope.

Section Core.
Variable frepr : spec_float -> text.
Variable ident : val -> val -> bool.
Variable ext : text -> option (list val -> val).
Variable lib : text -> list val -> val.
Variable tt : text -> bool.
Variable primary : option text.
Variable pick pick1 : list row -> row.
Variable nested : text -> row -> val.
Variable leK : val -> val -> bool.
Hypothesis TK : total_preorder leK.
Hypothesis EQ : forall a b, pyeq a b = true -> leK a b = true /\ leK b a = true.
Hypothesis HP : forall rs, rs <> [] -> In (pick rs) rs.
Hypothesis HP1 : forall rs, rs <> [] -> In (pick1 rs) rs.
Notation fn := (sql_fn frepr ident ext lib).
Notation value := (sem tt fn).

Variable R : Type.
Variable vw : R -> row.
Variable src_field : text -> R -> val.

Lemma collapsed_core : forall st cfg (q : select R output) good o p (keys : list key) (ck : (text -> val) -> list val),
  NoDup (map fst (st_items st)) ->
  Forall2 (fun nc ne => fst nc = fst ne /\ exists q, snd nc = GPlain q /\ forall r, ev frepr ident ext lib r q = value r (snd ne)) (g_schema cfg) (st_items st) ->
  st_where st = None ->
  (forall r, map (key_value frepr ident ext lib nested r) keys = ck r) ->
  (forall l, keep (s_having _ _ q) l = filter (fun o => holds tt fn (st_having st) (column o)) l) ->
  s_order _ _ q = map (fun nd => OCol [] (fst nd) (snd nd)) (st_order st) ->
  (forall n d, In (n, d) (st_order st) -> pushed _ _ q [] n = true ->
     exists m, In (n, ECol m) (st_items st) /\ (forall r r', equal_keys (ck r) (ck r') = true -> pyeq (r m) (r' m) = true) /\ forall x, src_field n x = vw x m) ->
  compile_order _ _ q = Ok (o, p) ->
  proper_keys tt fn equal_keys ck st (map vw good) ->
  collapsed_result tt fn leK equal_keys ck st (map vw good)
    (paged (st_limit st) (st_offset st) (fold_left (apply_pipeline output val leK field) p
      (keep (s_having _ _ q) (collapsed_by frepr ident ext lib primary pick pick1 nested cfg keys (map vw (sort (le_by val leK src_field o) good)))))).
Proof.
  intros st cfg q good o p keys_ ck ND Row W0 CK HK SO Pushed OC PK.
  set (sorted := sort (le_by val leK src_field o) good). set (rows := map vw sorted).
  assert (W1 : forall l, filter (holds tt fn (st_where st)) l = l).
  { intros l. rewrite W0. induction l as [|x l IH]; [reflexivity|]. cbn [filter holds]. rewrite IH. reflexivity. }
  assert (PS : Permutation good sorted) by apply sort_perm.
  assert (PR : Permutation (map vw good) rows) by (apply Permutation_map; exact PS).
  set (grows := collapsed_by frepr ident ext lib primary pick pick1 nested cfg keys_ rows).
  assert (FG : collapsed_rows tt fn equal_keys ck st rows grows).
  { apply collapsed_groups; [exact HP|exact HP1|exact Row|exact CK|]. apply Forall_forall. intros r I. apply PK; [eapply Permutation_in; [symmetry; exact PR|exact I]|rewrite W0; reflexivity]. }
  exists rows, grows, (fold_left (apply_pipeline output val leK field) p (keep (s_having _ _ q) grows)).
  rewrite !W1. split; [exact PR|]. split; [exact FG|]. rewrite HK.
  set (sel := filter (fun o => holds tt fn (st_having st) (column o)) grows).
  set (key := fun it (r : R) => match it with OCol _ n _ => src_field n r | OExp _ _ _ => VNone end).
  set (key_out := fun it (x : output) => match it with OCol _ n _ => field n x | OExp _ _ _ => VNone end).
  assert (Exps : forall sql lsql d, ~ In (OExp sql lsql d) (s_order _ _ q)).
  { intros sql lsql d I. rewrite SO in I. apply in_map_iff in I as (? & E & _). discriminate E. }
  assert (OL : forall x y, order_le val leK key_out (s_order _ _ q) x y = lex_le leK (map (fun nd => ((fun o => column o (fst nd)), snd nd)) (st_order st)) x y).
  { intros x y. unfold order_le. rewrite SO, map_map. reflexivity. }
  assert (None_ : st_order st = [] -> o = [] /\ p = []).
  { intros E. unfold compile_order in OC. rewrite SO, E in OC. cbn in OC. injection OC as <- <-. split; reflexivity. }
  destruct (order_cases R output val leK src_field field (fun _ => []) (fun _ => []) (fun _ => []) (fun _ => []) key output q field key_out o p OC) as [[-> Le]|(ks & k' & -> & Lo & _)].
  - intros tb n d _ _ r. reflexivity.
  - intros schema _. split; [intros tb n d _ _ x; reflexivity|intros sql lsql d I; destruct (Exps _ _ _ I)].
  - cbn [fold_left]. split; [reflexivity|]. split; [|split; [|reflexivity]].
    + apply (sublist_sorted _ _ _ grows); [apply sublist_filter|].
      destruct (keyed_firsts _ _ equal_keys (fun x => ck (vw x)) sorted []) as (firsts & S & E).
      assert (SF : StronglySorted (fun x y => order_le val leK key (s_order _ _ q) x y = true) firsts).
      { eapply sublist_sorted; [exact S|]. unfold sorted. rewrite (sort_ext _ _ (order_le val leK key (s_order _ _ q)) _ Le). apply sort_sorted, order_le_total. exact TK. }
      pose proof FG as FG'. unfold collapsed_rows in FG'. cbv zeta in FG'. unfold Reduce_Spec.keys in FG'.
      assert (Ek : @keys_from (list val) (text -> val) equal_keys [] (@map (text -> val) _ (fun r : text -> val => (ck r, r)) rows) = map (fun x => ck (vw x)) firsts).
      { rewrite E. unfold rows. generalize (@nil (list val)). generalize sorted. clear. intros l. induction l as [|x l IH]; intros seen; [reflexivity|]. cbn [map keys_from fst]. destruct (existsb _ _); rewrite IH; reflexivity. }
      rewrite Ek in FG'. rewrite Forall2_map_l in FG'.
      eapply sorted_related; [|exact FG'|exact SF]. cbn beta. intros a x b y Fa Fb Lab. rewrite <- Lab. rewrite <- OL. unfold order_le. rewrite SO, !map_map.
      symmetry. unfold key, key_out. cbn [descending].
      assert (Equi : forall n ds r0 z, In (n, ds) (st_order st) ->
          Forall2 (fun ne nv => fst nv = fst ne /\ exists r, In r (members equal_keys (map (fun r => (ck r, r)) rows) (ck (vw r0))) /\ snd nv = value r (snd ne)) (st_items st) z ->
          leK (src_field n r0) (field n z) = true /\ leK (field n z) (src_field n r0) = true).
      { intros n ds r0 z In_ Fz. assert (Pn : pushed _ _ q [] n = true).
        { apply (order_pushed_any R q o OC [] n ds). rewrite SO. apply in_map_iff. exists (n, ds). split; [reflexivity|exact In_]. }
        destruct (Pushed n ds In_ Pn) as (m & Ii & Same & Ev).
        pose proof (item_field (fun e v => exists r, In r (members equal_keys (map (fun r => (ck r, r)) rows) (ck (vw r0))) /\ v = value r e) _ _ n (ECol m) ND Ii Fz) as (r & Ir & ->). cbn [sem].
        rewrite keyed_members in Ir. apply filter_In in Ir. destruct Ir as [_ Ir]. rewrite Ev. apply EQ, Same. exact Ir. }
      pose proof (lex_equivalent R output val leK TK (map (fun nd : text * bool => (((fun r : R => src_field (fst nd) r), (fun x : output => field (fst nd) x)), snd nd)) (st_order st)) a b x y) as LE.
      rewrite !map_map in LE. cbn [fst snd] in LE. apply LE. intros f g ds I. apply in_map_iff in I as ([n d'] & E' & I). injection E' as <- <- <-. cbn [fst].
      destruct (Equi n d' a x I Fa) as [X1 X2]. destruct (Equi n d' b y I Fb) as [Y1 Y2]. auto.
    + intros E0. destruct (None_ E0) as [E1 _]. split; [|reflexivity]. unfold rows, sorted. f_equal. rewrite E1.
      generalize good. intros l. clear. induction l as [|x l IH]; [reflexivity|]. unfold sort in *. cbn [fold_right]. rewrite IH. destruct l; reflexivity.
  - cbn [fold_left apply_pipeline]. rewrite (sort_ext _ _ _ _ Lo). split; [apply sort_perm|]. split; [|split; [|reflexivity]].
    + assert (S0 : StronglySorted (fun x y => order_le val leK key_out (s_order _ _ q) x y = true) (sort (order_le val leK key_out (s_order _ _ q)) sel)) by (apply sort_sorted, order_le_total; exact TK).
      eapply sorted_weaken; [|exact S0]. intros x y L. rewrite <- OL. exact L.
    + intros E0. destruct (None_ E0) as [_ X]. discriminate X.
Qed.

(** As [collapse_limit], for any source. *)
Lemma collapse_limit_any : forall out agg grp dis (q : select R output) src, plain_limit (s_limit _ _ q) -> (s_limit _ _ q = None \/ s_having _ _ q <> None) ->
  run_select R output val leK src_field field out agg grp dis q src =
  do l <- run_select R output val leK src_field field out agg grp dis (with_limit q None None) src; Ok (paged (s_limit _ _ q) (s_offset _ _ q) l).
Proof.
  intros out agg grp dis q src PL LH.
  assert (E : q = with_limit q (s_limit _ _ q) (s_offset _ _ q)) by (destruct q; reflexivity). rewrite E at 1. unfold paged.
  destruct (s_limit R output q) as [n|].
  - rewrite limit_page; [|exact (PL n eq_refl)|]. 2: { intros _. right. left. destruct LH as [LH|LH]; [discriminate LH|exact LH]. }
    destruct (run_select _ _ _ _ _ _ _ _ _ _ _ src) as [l|]; [|reflexivity]. cbn [bind]. unfold page. rewrite paged_skipped. reflexivity.
  - destruct (s_offset R output q) as [o|].
    + apply offset_only.
    + destruct (run_select _ _ _ _ _ _ _ _ _ _ _ src); reflexivity.
Qed.
(** Nothing is cut from the source. *)
Lemma collapse_uncut : forall (q : select R output) ps, plain_limit (s_limit _ _ q) -> (s_limit _ _ q = None \/ s_having _ _ q <> None) -> snd (compile_limit R output q ps) = 0.
Proof.
  intros q ps PL [E|E]; unfold compile_limit; cbv zeta.
  - rewrite E. change (0 =? 0) with true. change (0 <=? 0) with true. rewrite !orb_true_r. cbn [negb orb]. match goal with |- context [if ?b then _ else _] => destruct b end; reflexivity.
  - destruct (s_having R output q); [|congruence]. cbn [is_some]. rewrite !orb_true_r. cbn [orb]. match goal with |- context [if ?b then _ else _] => destruct b end; reflexivity.
Qed.
End Core.

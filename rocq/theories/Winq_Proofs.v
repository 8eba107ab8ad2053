(** Lemmas on the compilation and execution of window columns. *)
From Coq Require Import SpecFloat Permutation Sorting.Sorted Lia.
From Verif Require Import Base PyVal Utils_Model Calc_Model Config_Model Config_Props Agg_Model Agg_Spec Agg_Proofs
  Expr_Syntax Expr_Model Expr_Spec Expr_Proofs Expr_Props Having_Spec Having_Model Having_Proofs Group_Syntax Cast_Syntax Group_Model Group_Spec Group_Proofs Group_Props
  Select_Model Select_Spec Select_Proofs Union_Proofs Winq_Syntax Winq_Model Winq_Spec.
Open Scope nat_scope.

Definition is_expr (ai : text * witem) : bool := match snd ai with WExpr _ _ => true | _ => false end.

Lemma nodup_app_l : forall A (a b : list A), NoDup (a ++ b) -> NoDup a.
Proof. induction a as [|x a IH]; intros b N; [constructor|]. cbn [app] in N. inversion N as [|? ? N1 N2]; subst. constructor; [|eapply IH; exact N2]. intros I. apply N1. apply in_app_iff. left. exact I. Qed.
Lemma nodup_app_r : forall A (a b : list A), NoDup (a ++ b) -> NoDup b.
Proof. induction a as [|x a IH]; intros b N; [exact N|]. cbn [app] in N. inversion N as [|? ? N1 N2]; subst. apply IH. exact N2. Qed.
Lemma nodup_app_disjoint : forall A (a b : list A) x, NoDup (a ++ b) -> In x a -> ~ In x b.
Proof.
  induction a as [|y a IH]; intros b x N I; [destruct I|]. cbn [app] in N. inversion N as [|? ? N1 N2]; subst. destruct I as [->|I]; [|apply IH; assumption].
  intros J. apply N1. apply in_app_iff. right. exact J.
Qed.

Lemma parse_windows_id : forall l, NoDup (map fst l) -> parse_windows l = l.
Proof.
  intros l N. unfold parse_windows. change l with ([] ++ l) at 2. assert (N' : NoDup (map fst ([] ++ l))) by exact N. clear N.
  revert N'. generalize (@nil (text * window)). induction l as [|[n w] l IH]; intros d N; [rewrite app_nil_r; reflexivity|].
  cbn [fold_left fst snd]. rewrite dict_set_fresh.
  - rewrite IH; [rewrite <- app_assoc; reflexivity|]. rewrite <- app_assoc. exact N.
  - rewrite map_app in N. cbn [map fst] in N. apply NoDup_remove_2 in N. intros I. apply N. apply in_app_iff. left. exact I.
Qed.

Lemma some_list_map : forall A B (f : A -> B) l, some_list (map f l) = match l with [] => None | _ => Some (map f l) end.
Proof. intros A B f [|x l]; reflexivity. Qed.

Lemma dict_del_absent : forall A k (d : list (text * A)), ~ In k (map fst d) -> dict_del k d = d.
Proof.
  intros A k d. unfold dict_del. induction d as [|[a b] d IH]; intros N; [reflexivity|]. cbn [filter fst map] in *.
  rewrite (proj2 (text_eqb_neq k a)) by (intros ->; apply N; left; reflexivity). cbn [negb]. f_equal. apply IH. intros I. apply N. right. exact I.
Qed.
Lemma dict_del_set : forall A k (v : A) d, ~ In k (map fst d) -> dict_del k (dict_set k v d) = d.
Proof.
  intros A k v d N. rewrite dict_set_fresh by exact N. unfold dict_del. rewrite filter_app. cbn [filter fst]. rewrite text_eqb_refl. cbn [negb].
  rewrite app_nil_r. apply dict_del_absent. exact N.
Qed.

Section Compile.
Variable frepr : spec_float -> text.
Variable ident : val -> val -> bool.
Variable ext : text -> option (list val -> val).
Variable known : text -> bool.
Variable q : wquery.
Notation items := (wq_items q).
Notation windows := (wq_windows q).
Notation compile := (compile frepr ident ext).
Notation canon := (canon frepr ident ext).

Definition the_window (c : wcall) : window := match window_of windows c with Some w => w | None => mkwindow [] [] None end.
Definition vals_of (f : wfun) : option (list valuer) :=
  match f with WAgg a => Some [compile_value frepr ident ext a] | WNamed _ _ args => some_list (map compile args) end.
Definition calc_of (f : wfun) : wcalc := match f with WAgg a => KAgg (calc a) | WNamed n _ _ => KFun n end.
Definition wcol_of (c : wcall) : wcol :=
  let w := the_window c in
  mkwcol (some_list (map canon (w_partition w))) (some_list (map (fun ko => (canon (fst ko), snd ko)) (w_order w))) (vals_of (w_fun c)) (calc_of (w_fun c)).
Definition col_of (i : witem) : scol :=
  match i with
  | WConst v => SPlain (QConst v)
  | WCol n => SPlain (QCol n)
  | WCalc e => SPlain (compile e)
  | WWin c => SWin (wcol_of c)
  | WExpr e _ => SPlain (compile e)
  end.
Definition hcol (h : text * wcall) : text * scol := (fst h, SWin (wcol_of (snd h))).
Definition cols_of (l : list (text * witem)) : list (text * scol) :=
  flat_map (fun ai => match snd ai with WExpr _ holes => map hcol holes | i => [(fst ai, col_of i)] end) l.
Definition finals_of (l : list (text * witem)) : list (text * (list text * valuer)) :=
  flat_map (fun ai => match snd ai with WExpr e holes => [(fst ai, (map fst holes, compile e))] | _ => [] end) l.

Definition from_items (schema : list (text * scol)) : Prop :=
  Forall (fun nc => In (fst nc) (hidden items) \/ exists i, In (fst nc, i) items /\ (forall n, i = WCol n -> snd nc = SPlain (QCol n))) schema.

Lemma window_key_canon : forall schema k, from_items schema -> plain_wkey items k -> window_key frepr ident ext schema k = canon k.
Proof.
  intros schema [[] n|e] F P; try reflexivity; unfold window_key; cbn [compile_key Group_Proofs.canon plain_wkey] in *; destruct P as [P H].
  2: { destruct (cast_column e) as [n|] eqn:C; [|reflexivity]. destruct (assoc n (erase schema)) as [g|] eqn:A; [|reflexivity]. exfalso. apply assoc_pair in A. unfold erase in A.
       apply in_map_iff in A as ([m c] & E & I). cbn [fst snd] in E. unfold from_items in F. rewrite Forall_forall in F. specialize (F _ I). cbn [fst snd] in F.
       assert (m = n) by congruence. subst m. destruct (H n eq_refl) as [H1 H2]. destruct F as [F|(i & Ii & _)]; [exact (H2 F)|]. apply H1. apply (in_map fst) in Ii. exact Ii. }
  destruct (assoc n (erase schema)) as [g|] eqn:A; [|reflexivity]. apply assoc_pair in A. unfold erase in A.
  apply in_map_iff in A as ([m c] & E & I). cbn [fst snd] in E.
  unfold from_items in F. rewrite Forall_forall in F. specialize (F _ I). cbn [fst snd] in F.
  assert (m = n) by congruence. subst m. destruct F as [F|(i & Ii & S)]; [exfalso; exact (H F)|].
  rewrite (S n (P i Ii)) in E. assert (g = GPlain (QCol n)) as -> by congruence. reflexivity.
Qed.

Lemma window_column_ok : forall schema c, from_items schema -> plain_call known q c ->
  window_column frepr ident ext known windows schema c = Ok (wcol_of c).
Proof.
  intros schema c F ((w & W & _ & Pp & Po) & _ & Pf). unfold window_column, wcol_of, the_window. rewrite W.
  assert (V : window_values frepr ident ext (w_fun c) = Ok (vals_of (w_fun c))).
  { destruct (w_fun c) as [a|n d args]; cbn [window_values vals_of].
    - destruct Pf as (D & _). destruct (a_distinct a); cbn [andb]; [rewrite (D eq_refl); reflexivity|reflexivity].
    - destruct Pf as (_ & -> & _). reflexivity. }
  assert (K : window_calculate known (w_fun c) = Ok (calc_of (w_fun c))).
  { destruct (w_fun c) as [a|n d args]; cbn [window_calculate calc_of]; [rewrite (calc_ok a Pf); reflexivity|].
    destruct Pf as (-> & _). reflexivity. }
  rewrite V. cbn [bind]. unfold window_of in W.
  assert (match w_name c with Some n => match assoc n windows with Some w => Ok w | None => Err CompileError end | None => Ok (w_inline c) end = Ok w) as ->.
  { destruct (w_name c) as [n|]; [rewrite W; reflexivity|congruence]. }
  cbn [bind]. rewrite K. cbn [bind]. f_equal. f_equal.
  - f_equal. apply map_ext_in. intros k I. apply window_key_canon; [exact F|]. rewrite Forall_forall in Pp. apply Pp, I.
  - f_equal. apply map_ext_in. intros k I. rewrite window_key_canon; [reflexivity|exact F|]. rewrite Forall_forall in Po. apply Po, I.
Qed.

Lemma hidden_columns_ok : forall holes schema, from_items schema -> Forall (fun h => plain_call known q (snd h)) holes ->
  incl (map fst holes) (hidden items) -> NoDup (map fst schema ++ map fst holes) ->
  hidden_columns frepr ident ext known windows schema holes = Ok (schema ++ map hcol holes).
Proof.
  induction holes as [|[h c] holes IH]; intros schema F P I N; [cbn [hidden_columns map]; rewrite app_nil_r; reflexivity|].
  cbn [hidden_columns]. inversion P as [|? ? Pc P']; subst. cbn [snd] in Pc. rewrite (window_column_ok schema c F Pc). cbn [bind map fst] in *.
  rewrite dict_set_fresh.
  - rewrite IH; [rewrite <- app_assoc; reflexivity| |exact P'|intros x Ix; apply I; right; exact Ix|].
    + apply Forall_app. split; [exact F|]. constructor; [|constructor]. left. apply I. left. reflexivity.
    + rewrite map_app, <- app_assoc. exact N.
  - apply NoDup_remove_2 in N. intros J. apply N. apply in_app_iff. left. exact J.
Qed.

Lemma cols_from : forall l, incl l items -> from_items (cols_of l).
Proof.
  intros l I. apply Forall_forall. intros [n c] J. unfold cols_of in J. apply in_flat_map in J as ([a i] & Ia & J). cbn [fst snd] in *.
  assert (G : forall d, [(a, d)] = [(n, c)] -> (forall m, i = WCol m -> d = SPlain (QCol m)) ->
    In n (hidden items) \/ exists i0, In (n, i0) items /\ (forall m, i0 = WCol m -> c = SPlain (QCol m))).
  { intros d E Hd. right. exists i. assert (a = n /\ d = c) as [-> ->] by (split; congruence). split; [apply I; exact Ia|exact Hd]. }
  destruct i as [v|m|e|k|e holes]; try (destruct J as [J|[]]; eapply G; [rewrite J; reflexivity|]; intros; try discriminate; cbn [col_of]; congruence).
  left. apply in_map_iff in J as (h & E & Ih). unfold hidden. apply in_flat_map. exists (a, WExpr e holes). split; [apply I; exact Ia|]. cbn [snd wholes].
  assert (fst h = n) as <- by (unfold hcol in E; congruence). apply in_map. exact Ih.
Qed.
Lemma cols_names : forall l n, In n (map fst (cols_of l)) -> In n (map fst l) \/ In n (hidden l).
Proof.
  induction l as [|[a i] l IH]; intros n I; [destruct I|]. unfold cols_of, hidden in *. cbn [flat_map map fst snd] in *. rewrite map_app in I. apply in_app_iff in I.
  destruct I as [I|I].
  - destruct i; cbn [map fst wholes] in *; try (destruct I as [I|[]]; left; left; exact I).
    right. apply in_app_iff. left. rewrite map_map in I. exact I.
  - destruct (IH n I) as [J|J]; [left; right; exact J|right; apply in_app_iff; right; exact J].
Qed.
Lemma finals_names : forall l n, In n (map fst (finals_of l)) -> In n (map fst l).
Proof.
  induction l as [|[a i] l IH]; intros n I; [destruct I|]. unfold finals_of in *. cbn [flat_map map fst snd] in *. rewrite map_app in I. apply in_app_iff in I.
  destruct I as [I|I]; [|right; apply IH; exact I]. destruct i; try contradiction. destruct I as [I|[]]. left. exact I.
Qed.

Lemma cols_nodup : forall l, NoDup (map fst l ++ hidden l) -> NoDup (map fst (cols_of l)).
Proof.
  induction l as [|[a i] l IH]; intros N; [constructor|].
  assert (Nl : NoDup (map fst l ++ hidden l)).
  { unfold hidden in *. cbn [map fst flat_map snd app] in N. inversion N as [|? ? N1 N2]; subst. clear -N2. induction (map fst l) as [|x r IHr]; cbn [app] in *; [apply nodup_app_r in N2; exact N2|].
    inversion N2 as [|? ? M1 M2]; subst. constructor; [|apply IHr; exact M2]. intros I. apply M1. apply in_app_iff in I. apply in_app_iff. destruct I as [I|I]; [left; exact I|right; apply in_app_iff; right; exact I]. }
  specialize (IH Nl). unfold cols_of. cbn [flat_map fst snd]. rewrite map_app. fold (cols_of l).
  assert (Sing : forall c, NoDup (map fst [(a, c : scol)] ++ map fst (cols_of l))).
  { intros c. cbn [map fst app]. constructor; [|exact IH]. intros I. apply cols_names in I. cbn [map fst app] in N. inversion N as [|? ? N1 _]; subst. apply N1.
    apply in_app_iff. destruct I as [I|I]; [left; exact I|right]. unfold hidden. cbn [flat_map]. apply in_app_iff. right. exact I. }
  destruct i as [v|n|e|c|e holes]; try apply Sing.
  rewrite map_map. cbn [hcol fst]. change (map (fun x => fst (hcol x)) holes) with (map (fun x : text * wcall => fst x) holes).
  unfold hidden in N. cbn [map fst app flat_map snd wholes] in N. inversion N as [|? ? N1 N2]; subst.
  assert (D : NoDup (map fst holes)).
  { apply nodup_app_r in N2. apply nodup_app_l in N2. exact N2. }
  assert (X : forall x, In x (map fst holes) -> ~ In x (map fst l ++ hidden l)).
  { intros x I J. clear -N2 I J. change (flat_map (fun ai => map fst (wholes (snd ai))) l) with (hidden l) in N2.
    apply (Permutation_NoDup (l' := map fst holes ++ (map fst l ++ hidden l))) in N2.
    - exact (nodup_app_disjoint _ _ _ x N2 I J).
    - rewrite !app_assoc. apply Permutation_app_tail. apply Permutation_app_comm. }
  clear N N1 N2 Sing Nl. induction (map fst holes) as [|y r IHr]; [exact IH|]. cbn [app]. inversion D as [|? ? D1 D2]; subst. constructor.
  - intros I. apply in_app_iff in I as [I|I]; [exact (D1 I)|]. apply cols_names in I. apply (X y (or_introl eq_refl)). apply in_app_iff. exact I.
  - apply IHr; [exact D2|]. intros x I. apply X. right. exact I.
Qed.

Lemma nodup_split : forall (l l' : list (text * witem)), NoDup (map fst (l ++ l') ++ hidden (l ++ l')) -> NoDup (map fst l ++ hidden l).
Proof.
  intros l l' N. unfold hidden in N. rewrite flat_map_app, map_app in N.
  apply (Permutation_NoDup (l' := (map fst l ++ hidden l) ++ (map fst l' ++ hidden l'))) in N.
  - apply nodup_app_l in N. exact N.
  - unfold hidden. rewrite <- !app_assoc. apply Permutation_app_head. rewrite !app_assoc. apply Permutation_app_tail. apply Permutation_app_comm.
Qed.

Lemma wcompile_items_ok : forall l done, done ++ l = items -> NoDup (map fst items ++ hidden items) ->
  Forall (fun ai => plain_witem known q (snd ai)) l ->
  wcompile_items frepr ident ext known windows (mkwconfig (cols_of done) (finals_of done)) l = Ok (mkwconfig (cols_of items) (finals_of items)).
Proof.
  induction l as [|[alias i] l IH]; intros done D N P.
  - rewrite app_nil_r in D. subst done. reflexivity.
  - assert (D' : (done ++ [(alias, i)]) ++ l = items) by (rewrite <- app_assoc; exact D).
    assert (Id : incl done items) by (rewrite <- D; intros x I; apply in_app_iff; left; exact I).
    assert (Nd : NoDup (map fst (done ++ [(alias, i)]) ++ hidden (done ++ [(alias, i)]))) by (apply (nodup_split _ l); rewrite D'; exact N).
    assert (Nc : NoDup (map fst (cols_of (done ++ [(alias, i)])))) by (apply cols_nodup; exact Nd).
    assert (Na : ~ In alias (map fst (cols_of done))).
    { intros I. apply cols_names in I. rewrite map_app in Nd. cbn [map fst] in Nd. rewrite <- app_assoc in Nd. cbn [app] in Nd.
      apply NoDup_remove_2 in Nd. apply Nd. apply in_app_iff. destruct I as [I|I]; [left; exact I|right].
      unfold hidden. rewrite flat_map_app. apply in_app_iff. left. exact I. }
    assert (Nf : ~ In alias (map fst (finals_of done))).
    { intros I. apply finals_names in I. rewrite map_app in Nd. cbn [map fst] in Nd. rewrite <- app_assoc in Nd. cbn [app] in Nd.
      apply NoDup_remove_2 in Nd. apply Nd. apply in_app_iff. left. exact I. }
    cbn [wcompile_items]. inversion P as [|? ? Pi P']; subst. cbn [snd] in Pi.
    assert (C : cols_of (done ++ [(alias, i)]) = cols_of done ++ match i with WExpr _ holes => map hcol holes | j => [(alias, col_of j)] end).
    { unfold cols_of. rewrite flat_map_app. cbn [flat_map fst snd]. rewrite app_nil_r. destruct i; reflexivity. }
    assert (G : finals_of (done ++ [(alias, i)]) = finals_of done ++ match i with WExpr e holes => [(alias, (map fst holes, compile e))] | _ => [] end).
    { unfold finals_of. rewrite flat_map_app. cbn [flat_map fst snd]. rewrite app_nil_r. reflexivity. }
    assert (K : wcompile_item frepr ident ext known windows (mkwconfig (cols_of done) (finals_of done)) alias i =
      Ok (mkwconfig (cols_of (done ++ [(alias, i)])) (finals_of (done ++ [(alias, i)])))).
    { rewrite C, G. destruct i as [v|n|e|c|e holes]; cbn [wcompile_item s_cols s_finals col_of]; rewrite ?app_nil_r.
      - rewrite dict_set_fresh by exact Na. reflexivity.
      - rewrite dict_set_fresh by exact Na. reflexivity.
      - rewrite dict_set_fresh by exact Na. reflexivity.
      - destruct Pi as [Pi _]. cbn [wcalls] in Pi. rewrite window_column_ok; [|apply cols_from; exact Id|exact (Forall_inv Pi)]. cbn [bind].
        rewrite dict_set_fresh by exact Na. rewrite dict_del_absent by exact Nf. reflexivity.
      - destruct Pi as [Pi _]. cbn [wcalls] in Pi. rewrite Forall_map in Pi.
        rewrite hidden_columns_ok; [|apply cols_from; exact Id|exact Pi| |].
        + cbn [bind]. rewrite dict_del_set.
          * rewrite dict_set_fresh by exact Nf. reflexivity.
          * rewrite map_app. intros I. apply in_app_iff in I as [I|I]; [exact (Na I)|].
            rewrite map_app in Nd. cbn [map fst] in Nd. rewrite <- app_assoc in Nd. cbn [app] in Nd. apply NoDup_remove_2 in Nd. apply Nd.
            apply in_app_iff. right. unfold hidden. rewrite flat_map_app. apply in_app_iff. right. cbn [flat_map snd wholes]. rewrite app_nil_r.
            rewrite map_map in I. exact I.
        + intros x I. unfold hidden. apply in_flat_map. exists (alias, WExpr e holes). split; [rewrite <- D; apply in_app_iff; right; left; reflexivity|exact I].
        + rewrite C in Nc. rewrite map_app in Nc. rewrite map_map in Nc. exact Nc. }
    rewrite K. cbn [bind]. apply IH; assumption.
Qed.
End Compile.

(** ** Execution *)
Section Run.
Variable frepr : spec_float -> text.
Variable ident : val -> val -> bool.
Variable ext : text -> option (list val -> val).
Variable lib : text -> list val -> val.
Variable tt : text -> bool.
Hypothesis no_neg : ext (t "neg") = None.
Variable str_of : val -> text.
Variable leK : val -> val -> bool.
Hypothesis TP : total_preorder leK.
Variable nested : text -> row -> val.
Variable fn : text -> list (list val * list val) -> nat -> val.
Variable known : text -> bool.
Variable q : wquery.
Notation items := (wq_items q).
Notation windows := (wq_windows q).
Notation ev := (ev frepr ident ext lib).
Notation value := (sem tt (sql_fn frepr ident ext lib)).
Notation wcol_of := (wcol_of frepr ident ext q).
Notation cols_of := (cols_of frepr ident ext q).
Notation finals_of := (finals_of frepr ident ext).

Lemma key_canon : forall k r, plain_wkey items k -> key_value frepr ident ext lib nested r (canon frepr ident ext k) = group_value value r k.
Proof.
  intros [b n|e] r P; [reflexivity|]. cbn [canon key_value group_value plain_wkey] in *. apply (compiled_value frepr ident ext lib tt no_neg e (proj1 P) r).
Qed.

Section Call.
Variable w : window.
Hypothesis Pp : Forall (plain_wkey items) (w_partition w).
Hypothesis Po : Forall (fun k => plain_wkey items (fst k)) (w_order w).
Notation canon := (canon frepr ident ext).

Lemma part_keys : forall r, keys_of frepr ident ext lib nested (some_list (map canon (w_partition w))) r = part_key value w r.
Proof.
  intros r. rewrite some_list_map. unfold part_key, keys_of. destruct (w_partition w) as [|k0 ks] eqn:E; [reflexivity|]. rewrite <- E in *.
  rewrite map_map. apply map_ext_in. intros k I. apply key_canon. rewrite Forall_forall in Pp. apply Pp, I.
Qed.
Lemma orders_canon : orders_of (some_list (map (fun ko => (canon (fst ko), snd ko)) (w_order w))) = map (fun ko => (canon (fst ko), snd ko)) (w_order w).
Proof. destruct (w_order w); reflexivity. Qed.
Lemma order_keys_canon : forall r, map (fun ko => key_value frepr ident ext lib nested r (fst ko)) (map (fun ko : group_item * bool => (canon (fst ko), snd ko)) (w_order w)) = order_values value w r.
Proof.
  intros r. unfold order_values. rewrite map_map. apply map_ext_in. intros k I. cbn [fst]. apply key_canon. rewrite Forall_forall in Po. apply Po, I.
Qed.
Lemma le_rows_spec : forall x y : irow,
  le_rows frepr ident ext lib leK nested (map (fun ko => (canon (fst ko), snd ko)) (w_order w)) (snd x) (snd y) = before_or_tied value leK w x y.
Proof.
  intros x y. unfold before_or_tied. revert Po. induction (w_order w) as [|[k d] l IH]; intros P; [reflexivity|].
  inversion P as [|? ? Pk P']; subst. cbn [fst] in Pk. cbn [map le_rows lex_le fst snd]. rewrite (IH P').
  destruct d; rewrite !(key_canon k _ Pk);
    match goal with |- (if ?A then if ?B then _ else _ else _) = _ => destruct A, B; reflexivity end.
Qed.
End Call.

Lemma numbered_fst : forall rows, map fst (numbered rows) = seq 0 (length rows).
Proof.
  intros rows. unfold numbered. generalize 0. induction rows as [|r rows IH]; intros s; [reflexivity|]. cbn [length seq combine map fst]. f_equal. apply IH.
Qed.
Lemma numbered_nodup : forall rows, NoDup (map fst (numbered rows)).
Proof. intros rows. rewrite numbered_fst. apply seq_NoDup. Qed.

Lemma filter_nodup_fst : forall (p : irow -> bool) l, NoDup (map fst l) -> NoDup (map fst (filter p l)).
Proof.
  intros p. induction l as [|x l IH]; intros N; [constructor|]. cbn [map filter] in *. inversion N as [|? ? N1 N2]; subst. destruct (p x); [|apply IH; exact N2].
  cbn [map]. constructor; [|apply IH; exact N2]. intros I. apply N1. apply in_map_iff in I as (y & E & Iy). apply filter_In in Iy. rewrite <- E. apply in_map. apply Iy.
Qed.
Lemma position_split : forall (c : irow) bef aft, NoDup (map fst (bef ++ c :: aft)) -> position (fst c) (bef ++ c :: aft) = length bef.
Proof.
  intros [i r] bef aft. cbn [fst]. induction bef as [|[j s] bef IH]; intros N; cbn [app position length map fst] in *; [rewrite Nat.eqb_refl; reflexivity|].
  inversion N as [|? ? N1 N2]; subst. assert (i =? j = false) as ->.
  { apply Nat.eqb_neq. intros ->. apply N1. rewrite map_app. apply in_app_iff. right. left. reflexivity. }
  f_equal. apply IH. exact N2.
Qed.
Lemma firstn_split : forall A (c : A) bef aft, firstn (S (length bef)) (bef ++ c :: aft) = bef ++ [c].
Proof. intros A c bef aft. induction bef as [|b bef IH]; [reflexivity|]. cbn [length app]. rewrite <- IH. reflexivity. Qed.

(** What the claim asks of a call on a row: the values over which an aggregate is taken can be aggregated. *)
Definition fits (fr : frame_rows) (rows : list row) (c : irow) (k : wcall) : Prop :=
  forall w a, window_of windows k = Some w -> w_fun k = WAgg a ->
    (w_order w = [] -> summable (a_fun a) (a_distinct a) (argument value a (map snd (partition value equal_keys w rows (snd c))))) /\
    (forall bef aft, w_order w <> [] -> sorted_as (before_or_tied value leK w) (partition value equal_keys w rows (snd c)) (bef ++ c :: aft) ->
      summable (a_fun a) (a_distinct a) (argument value a (map snd (fr (before_or_tied value leK w) bef c aft)))).

Lemma call_ok : forall rows c k, In c (numbered rows) -> plain_call known q k ->
  (forall w, window_of windows k = Some w -> equal_keys (part_key value w (snd c)) (part_key value w (snd c)) = true) ->
  fits rows_frame rows c k ->
  exists v, win_value frepr ident ext lib str_of leK nested fn rows c (wcol_of k) = Ok v /\
    exists w, window_of windows k = Some w /\ call_value str_of value equal_keys leK fn rows_frame rows c w (w_fun k) v.
Proof.
  intros rows c k Ic ((w & W & _ & Pp & Po) & _ & Pf) Rf Su. specialize (Rf w W).
  assert (TW : total_preorder (before_or_tied value leK w)) by (apply lex_total; exact TP).
  unfold win_value, Winq_Proofs.wcol_of, the_window. rewrite W. cbv zeta. cbn [wc_keys wc_order wc_values wc_calc].
  rewrite (orders_canon w Po).
  match goal with |- context [filter ?f ?l] => set (part := filter f l) end.
  assert (EP : part = partition value equal_keys w rows (snd c)).
  { unfold part, partition. apply filter_ext. intros x. rewrite !(part_keys w Pp), equal_keys_same. reflexivity. }
  match goal with |- context [sort ?f part] => set (sorted := sort f part) end.
  assert (ES : sorted = sort (before_or_tied value leK w) part) by (apply sort_ext; intros x y; apply le_rows_spec; exact Po).
  assert (SA : sorted_as (before_or_tied value leK w) part sorted) by (rewrite ES; apply sort_sorted_as; exact TW).
  assert (Inp : In c part) by (rewrite EP; apply filter_In; split; [exact Ic|exact Rf]).
  assert (Ins : In c sorted) by (destruct SA as [Pm _]; apply (Permutation_in c Pm); exact Inp).
  assert (ND : NoDup (map fst sorted)).
  { destruct SA as [Pm _]. apply (Permutation_NoDup (Permutation_map fst Pm)). apply filter_nodup_fst. apply numbered_nodup. }
  clearbody sorted part. subst part. destruct (in_split c sorted Ins) as (bef & aft & ->). clear Ins ES.
  assert (PS := position_split c bef aft ND).
  match type of PS with ?L = _ => match goal with |- context [position ?a ?b] => change (position a b) with L end end. rewrite PS. clear PS.
  destruct (w_fun k) as [a|name d args] eqn:Fk; cbn [calc_of vals_of].
  - assert (V : forall x : irow, Winq_Model.first_value (values_of frepr ident ext lib (Some [compile_value frepr ident ext a]) (snd x)) = ev (snd x) (compile_value frepr ident ext a)) by reflexivity.
    rewrite (map_ext _ _ V). rewrite some_list_map. destruct (Su w a W Fk) as [S1 S2].
    destruct (w_order w) as [|o os] eqn:O.
    + match goal with |- context [run _ _ ?m] => assert (E : m = map (fun r => ev r (compile_value frepr ident ext a)) (map snd (partition value equal_keys w rows (snd c))))
        by (rewrite map_map; reflexivity); rewrite E; clear E end.
      destruct (one_state frepr ident ext lib tt no_neg str_of (map snd (partition value equal_keys w rows (snd c))) a) as (s & v & R & F & A).
      * intros Z. apply map_eq_nil in Z. exact (eq_ind _ (fun l => In c l) Inp _ Z).
      * split; [exact Pf|apply S1; reflexivity].
      * rewrite R. cbn [bind]. exists v. split; [exact F|]. exists w. split; [reflexivity|]. apply V_whole; [exact O|exact A].
    + match goal with |- context [run _ _ ?m] => assert (E : m = map (fun r => ev r (compile_value frepr ident ext a)) (map snd (bef ++ [c])))
        by (rewrite map_map; rewrite <- (firstn_split _ c bef aft); reflexivity); rewrite E; clear E end.
      destruct (one_state frepr ident ext lib tt no_neg str_of (map snd (bef ++ [c])) a) as (s & v & R & F & A).
      * rewrite map_app. intros Z. apply app_eq_nil in Z as [_ Z]. discriminate Z.
      * split; [exact Pf|]. apply (S2 bef aft); [discriminate|exact SA].
      * rewrite R. cbn [bind]. exists v. split; [exact F|]. exists w. split; [reflexivity|]. apply V_running with (bef := bef) (aft := aft); [rewrite O; discriminate|exact SA|exact A].
  - destruct Pf as (_ & -> & Px). eexists. split; [reflexivity|]. exists w. split; [reflexivity|].
    match goal with |- context [fn name ?m _] => assert (E : m = map (fun x : irow => (order_values value w (snd x), map (value (snd x)) args)) (bef ++ c :: aft)) end;
      [|rewrite E; apply V_function; exact SA].
    apply map_ext. intros x. f_equal; [apply order_keys_canon; exact Po|].
    rewrite some_list_map. destruct args as [|e0 es]; [reflexivity|]. cbn [values_of]. rewrite map_map. apply map_ext_in. intros e Ie.
    rewrite Forall_forall in Px. apply (compiled_value frepr ident ext lib tt no_neg e (Px e Ie) (snd x)).
Qed.

(** *** The row of the first task *)
Definition first_ok (rows : list row) (c : irow) (nc : text * scol) (nv : text * val) : Prop :=
  fst nv = fst nc /\
  match snd nc with
  | SPlain p => snd nv = ev (snd c) p
  | SWin w => win_value frepr ident ext lib str_of leK nested fn rows c w = Ok (snd nv)
  end.
Lemma wfirst_row_ok : forall rows c cols,
  (forall n w, In (n, SWin w) cols -> exists v, win_value frepr ident ext lib str_of leK nested fn rows c w = Ok v) ->
  exists cs, wfirst_row frepr ident ext lib str_of leK nested fn rows c cols = Ok cs /\ Forall2 (first_ok rows c) cols cs.
Proof.
  intros rows c. induction cols as [|[n [p|w]] cols IH]; intros H; [exists []; split; [reflexivity|constructor]| |].
  - destruct IH as (cs & E & F); [intros m w I; apply (H m w); right; exact I|]. cbn [wfirst_row]. rewrite E. cbn [bind].
    eexists. split; [reflexivity|]. constructor; [split; reflexivity|exact F].
  - destruct IH as (cs & E & F); [intros m w' I; apply (H m w'); right; exact I|]. destruct (H n w (or_introl eq_refl)) as (v & V).
    cbn [wfirst_row]. rewrite V, E. cbn [bind]. eexists. split; [reflexivity|]. constructor; [split; [reflexivity|exact V]|exact F].
Qed.
Lemma first_names : forall rows c cols cs, Forall2 (first_ok rows c) cols cs -> map fst cs = map fst cols.
Proof. intros rows c cols cs H. induction H as [|x y l cs H H' IH]; [reflexivity|]. cbn [map]. rewrite IH. destruct H as [-> _]. reflexivity. Qed.
Lemma first_in : forall rows c cols cs n p, Forall2 (first_ok rows c) cols cs -> In (n, p) cols -> exists v, In (n, v) cs /\ first_ok rows c (n, p) (n, v).
Proof.
  intros rows c cols cs n p H. induction H as [|x [m v] l cs H H' IH]; intros I; [destruct I|]. destruct I as [->|I].
  - destruct H as [E H]. cbn [fst] in E. subst m. exists v. split; [left; reflexivity|split; [reflexivity|exact H]].
  - destruct (IH I) as (d & J & K). exists d. split; [right; exact J|exact K].
Qed.

(** *** The row of the second task *)
Definition in_some (fs : list (text * (list text * valuer))) (n : text) : bool := existsb (fun f => existsb (text_eqb n) (fst (snd f))) fs.
Lemma wsecond_spec : forall first fs row, NoDup (map fst row ++ map fst fs) ->
  (forall a, In a (map fst fs) -> in_some fs a = false) ->
  fold_left (fun r f => dict_set (fst f) (ev (copied first) (snd (snd f))) (filter (fun nv => negb (existsb (text_eqb (fst nv)) (fst (snd f)))) r)) fs row =
    filter (fun nv => negb (in_some fs (fst nv))) row ++ map (fun f => (fst f, ev (copied first) (snd (snd f)))) fs.
Proof.
  intros first. induction fs as [|[a [hs p]] fs IH]; intros row N D.
  - cbn [fold_left map in_some existsb]. rewrite app_nil_r. clear N. symmetry. induction row as [|x row IHr]; [reflexivity|]. cbn [filter negb]. f_equal. exact IHr.
  - cbn [fold_left fst snd]. cbn [map fst] in N.
    assert (A : ~ In a (map fst row)).
    { apply NoDup_remove_2 in N. intros I. apply N. apply in_app_iff. left. exact I. }
    assert (SubF : forall (g : text * val -> bool) x, In x (map fst (filter g row)) -> In x (map fst row)).
    { intros g x I. apply in_map_iff in I as (y & E & J). apply filter_In in J. rewrite <- E. apply in_map. apply J. }
    rewrite dict_set_fresh by (intros I; apply A; eapply SubF; exact I).
    rewrite IH.
    + rewrite filter_app. cbn [filter fst map]. assert (in_some fs a = false) as ->.
      { specialize (D a (or_introl eq_refl)). unfold in_some in *. cbn [existsb] in D. apply orb_false_iff in D. apply D. }
      cbn [negb]. rewrite <- app_assoc. cbn [app]. f_equal. clear. induction row as [|x row IHr]; [reflexivity|]. unfold in_some in *. cbn [filter existsb fst snd].
      destruct (existsb (text_eqb (fst x)) hs); cbn [negb orb filter]; [apply IHr|]. destruct (existsb _ fs); cbn [negb]; [apply IHr|f_equal; apply IHr].
    + rewrite map_app, <- app_assoc. cbn [map fst app]. clear -N. induction row as [|x row IHr]; cbn [filter map app] in *; [exact N|].
      inversion N as [|? ? N1 N2]; subst. destruct (negb _); [|apply IHr; exact N2]. cbn [map app]. constructor; [|apply IHr; exact N2].
      intros I. apply N1. apply in_app_iff in I as [I|I]; apply in_app_iff; [left|right; exact I].
      apply in_map_iff in I as (y & E & J). apply filter_In in J. rewrite <- E. apply in_map. apply J.
    + intros b I. specialize (D b (or_intror I)). unfold in_some in *. cbn [existsb] in D. apply orb_false_iff in D. apply D.
Qed.

Lemma in_some_hidden : forall l n, in_some (finals_of l) n = true <-> In n (hidden l).
Proof.
  intros l n. unfold in_some. rewrite existsb_exists. split.
  - intros ([a [hs p]] & I & E). cbn [fst snd] in E. apply existsb_exists in E as (m & Im & E). apply text_eqb_spec in E. subst m.
    unfold Winq_Proofs.finals_of in I. apply in_flat_map in I as ([b i] & Ib & I). cbn [fst snd] in I. destruct i; try contradiction. destruct I as [I|[]].
    unfold hidden. apply in_flat_map. exists (b, WExpr e holes). split; [exact Ib|]. cbn [snd wholes]. assert (map fst holes = hs) as -> by congruence. exact Im.
  - unfold hidden. rewrite in_flat_map. intros ([b i] & Ib & I). cbn [snd] in I. destruct i; try contradiction. cbn [wholes] in I.
    exists (b, (map fst holes, compile frepr ident ext e)). split.
    + unfold Winq_Proofs.finals_of. apply in_flat_map. exists (b, WExpr e holes). split; [exact Ib|left; reflexivity].
    + cbn [fst snd]. apply existsb_exists. exists n. split; [exact I|apply text_eqb_refl].
Qed.

Lemma Forall2_filter : forall A B (R : A -> B -> Prop) f g, (forall a b, R a b -> f a = g b) ->
  forall l m, Forall2 R l m -> Forall2 R (filter f l) (filter g m).
Proof.
  intros A B R f g H l m F. induction F as [|x y l m Rxy F IH]; [constructor|]. cbn [filter]. rewrite (H x y Rxy). destruct (g y); [constructor; assumption|exact IH].
Qed.
Lemma visible_cols : forall (hid : text -> bool) l, (forall ai, In ai l -> hid (fst ai) = false) -> (forall n, In n (hidden l) -> hid n = true) ->
  filter (fun nc => negb (hid (fst nc))) (cols_of l) = map (fun ai => (fst ai, col_of frepr ident ext q (snd ai))) (filter (fun ai => negb (is_expr ai)) l).
Proof.
  intros hid. induction l as [|[a i] l IH]; intros H1 H2; [reflexivity|].
  unfold Winq_Proofs.cols_of. cbn [flat_map fst snd]. rewrite filter_app. change (flat_map _ l) with (cols_of l). rewrite IH.
  - pose proof (H1 _ (or_introl eq_refl)) as Ha. cbn [fst] in Ha.
    destruct i as [v|n|e|k|e holes]; unfold is_expr; cbn [filter fst snd negb map app]; rewrite ?Ha; cbn [negb app]; try reflexivity.
    match goal with |- ?x ++ ?y = ?z => assert (x = []) as ->; [|reflexivity] end.
    assert (G : forall h, In h holes -> hid (fst h) = true).
    { intros h I. apply H2. unfold hidden. cbn [flat_map snd wholes]. apply in_app_iff. left. apply in_map. exact I. }
    clear -G. induction holes as [|h holes IHh]; [reflexivity|]. cbn [map filter hcol fst]. rewrite (G h (or_introl eq_refl)). cbn [negb].
    apply IHh. intros h' I. apply G. right. exact I.
  - intros ai I. apply H1. right. exact I.
  - intros n I. apply H2. unfold hidden in *. cbn [flat_map]. apply in_app_iff. right. exact I.
Qed.
Lemma finals_filter : forall (g : text * (list text * valuer) -> text * val) l, map g (finals_of l) =
  map (fun ai => g (fst ai, (map fst (wholes (snd ai)), match snd ai with WExpr e _ => compile frepr ident ext e | _ => QConst VNone end))) (filter is_expr l).
Proof.
  intros g. induction l as [|[a i] l IH]; [reflexivity|]. unfold Winq_Proofs.finals_of. cbn [flat_map fst snd]. rewrite map_app. change (flat_map _ l) with (finals_of l). rewrite IH.
  destruct i; reflexivity.
Qed.
Lemma Forall2_map_r : forall A B C (f : A -> B) (P : C -> B -> Prop) l m, Forall2 P m (map f l) <-> Forall2 (fun x y => P x (f y)) m l.
Proof.
  intros A B C f P. induction l as [|x l IH]; intros m; split; intros H; inversion H; subst; cbn [map]; constructor; auto; apply IH; assumption.
Qed.
Lemma Forall2_diag : forall A (P : A -> A -> Prop) l, (forall x, In x l -> P x x) -> Forall2 P l l.
Proof. intros A P. induction l as [|x l IH]; intros H; constructor; [apply H; left; reflexivity|apply IH; intros y I; apply H; right; exact I]. Qed.

Definition shown (l : list (text * witem)) : list (text * witem) := filter (fun ai => negb (is_expr ai)) l ++ filter is_expr l.

Lemma wout_row_ok : forall rows c, In c (numbered rows) -> plain_wquery known q ->
  (forall alias i k w, In (alias, i) items -> In k (wcalls i) -> window_of windows k = Some w ->
     equal_keys (part_key value w (snd c)) (part_key value w (snd c)) = true) ->
  (forall alias i k, In (alias, i) items -> In k (wcalls i) -> fits rows_frame rows c k) ->
  exists o, wout_row frepr ident ext lib str_of leK nested fn (mkwconfig (cols_of items) (finals_of items)) rows c = Ok o /\
    Forall2 (fun ai nv => fst nv = fst ai /\ witem_value str_of value equal_keys leK fn rows_frame windows rows c (snd ai) (snd nv)) (shown items) o.
Proof.
  intros rows c Ic (_ & ND & PI) RF SU. rewrite Forall_forall in PI.
  assert (CK : forall alias i k, In (alias, i) items -> In k (wcalls i) ->
    exists v, win_value frepr ident ext lib str_of leK nested fn rows c (wcol_of k) = Ok v /\
      exists w, window_of windows k = Some w /\ call_value str_of value equal_keys leK fn rows_frame rows c w (w_fun k) v).
  { intros alias i k I J. apply call_ok; [exact Ic| |intros w W; exact (RF alias i k w I J W)|exact (SU alias i k I J)].
    destruct (PI _ I) as [P _]. cbn [snd] in P. rewrite Forall_forall in P. apply P. exact J. }
  destruct (wfirst_row_ok rows c (cols_of items)) as (cs & E & F).
  { intros n w I. unfold Winq_Proofs.cols_of in I. apply in_flat_map in I as ([alias i] & Ia & I). cbn [fst snd] in I.
    destruct i as [v|m|e|k|e holes]; try (destruct I as [I|[]]; cbn [col_of] in I; congruence).
    - destruct I as [I|[]]. cbn [col_of] in I. assert (w = wcol_of k) as -> by congruence.
      destruct (CK alias (WWin k) k Ia (or_introl eq_refl)) as (v & V & _). exists v. exact V.
    - apply in_map_iff in I as ([h k] & I & Ih). unfold hcol in I. cbn [fst snd] in I. assert (w = wcol_of k) as -> by congruence.
      destruct (CK alias (WExpr e holes) k Ia) as (v & V & _); [cbn [wcalls]; apply (in_map snd) in Ih; exact Ih|]. exists v. exact V. }
  assert (NC : NoDup (map fst cs)) by (rewrite (first_names rows c _ cs F); apply cols_nodup; exact ND).
  assert (DJ : forall a, In a (map fst items) -> ~ In a (hidden items)) by (intros a I; exact (nodup_app_disjoint _ _ _ a ND I)).
  unfold wout_row. cbn [s_cols s_finals]. rewrite E. cbn [bind]. eexists. split; [reflexivity|]. unfold wsecond_row. rewrite wsecond_spec.
  - unfold shown. apply Forall2_app.
    + assert (V := visible_cols (in_some (finals_of items)) items). 
      assert (F' := Forall2_filter _ _ _ (fun nc => negb (in_some (finals_of items) (fst nc))) (fun nv => negb (in_some (finals_of items) (fst nv)))
        (fun a b (H : first_ok rows c a b) => f_equal (fun x => negb (in_some (finals_of items) x)) (eq_sym (proj1 H))) _ _ F).
      rewrite V in F'.
      * rewrite Forall2_map_l in F'.
        assert (P2 : Forall (fun ai => In ai items /\ is_expr ai = false) (filter (fun ai => negb (is_expr ai)) items)).
        { apply Forall_forall. intros ai I. apply filter_In in I as [I J]. split; [exact I|]. destruct (is_expr ai); [discriminate|reflexivity]. }
        clear -F' P2 CK PI no_neg. induction F' as [|[a i] nv l o [H1 H2] F IH]; [constructor|]. inversion P2 as [|? ? [Pa Pe] P2']; subst. constructor; [|apply IH; exact P2'].
        cbn [fst snd] in *. split; [exact H1|]. destruct i as [v|m|e|k|e holes]; cbn [col_of] in H2.
        -- rewrite H2. apply V_const.
        -- rewrite H2. apply (V_col str_of value equal_keys leK fn rows_frame windows rows c m).
        -- rewrite H2. destruct (PI _ Pa) as [_ X]. cbn [snd] in X. rewrite (compiled_value frepr ident ext lib tt no_neg e X (snd c)). apply V_calc.
        -- destruct (CK a (WWin k) k Pa (or_introl eq_refl)) as (v & V & w & W & C). assert (snd nv = v) as -> by congruence. apply V_win with (w := w); assumption.
        -- discriminate Pe.
      * intros ai I. destruct (in_some (finals_of items) (fst ai)) eqn:S; [|reflexivity]. apply in_some_hidden in S. exfalso. apply (DJ (fst ai)); [apply in_map; exact I|exact S].
      * intros n I. apply in_some_hidden. exact I.
    + rewrite finals_filter. rewrite Forall2_map_r. apply Forall2_diag. intros [a i] I. apply filter_In in I as [I J]. cbn [fst snd].
      split; [reflexivity|]. destruct i as [v|m|e|k|e holes]; try discriminate J. clear J. destruct (PI _ I) as [_ [X M]]. cbn [snd] in X, M.
      rewrite (compiled_value frepr ident ext lib tt no_neg e X).
      assert (HV : exists vs, Forall2 (fun h v => fst v = fst h /\ copied cs (fst v) = snd v /\ exists w, window_of windows (snd h) = Some w /\
          call_value str_of value equal_keys leK fn rows_frame rows c w (w_fun (snd h)) (snd v)) holes vs).
      { assert (G : forall h, In h holes -> exists v, copied cs (fst h) = v /\ exists w, window_of windows (snd h) = Some w /\ call_value str_of value equal_keys leK fn rows_frame rows c w (w_fun (snd h)) v).
        { intros [h k] Ih. cbn [fst snd]. destruct (CK a (WExpr e holes) k I) as (v & V & w & W & C); [cbn [wcalls]; apply (in_map snd) in Ih; exact Ih|].
          exists v. split; [|exists w; split; assumption].
          destruct (first_in rows c _ cs h (SWin (wcol_of k)) F) as (v' & Iv & _ & K).
          { unfold Winq_Proofs.cols_of. apply in_flat_map. exists (a, WExpr e holes). split; [exact I|]. cbn [snd]. apply in_map_iff. exists (h, k). split; [reflexivity|exact Ih]. }
          unfold copied. rewrite (assoc_nodup _ h cs v' NC Iv). cbn [snd] in K. congruence. }
        clear -G. induction holes as [|h holes IH]; [exists []; constructor|]. destruct (G h (or_introl eq_refl)) as (v & V & C).
        destruct IH as (vs & Fs); [intros h' I; apply G; right; exact I|]. exists ((fst h, v) :: vs). constructor; [|exact Fs]. cbn [fst snd]. auto. }
      destruct HV as (vs & HV).
      assert (HN : map fst vs = map fst holes) by (clear -HV; induction HV as [|h v hs vs [H _] F IH]; [reflexivity|]; cbn [map]; rewrite IH, H; reflexivity).
      assert (HC : forall n v, In (n, v) vs -> copied cs n = v).
      { clear -HV. induction HV as [|h v hs vs (_ & H & _) F IH]; intros n u J; [destruct J|]. destruct J as [->|J]; [exact H|apply IH; exact J]. }
      assert (SE : value (copied cs) e = value (fun n => match assoc n vs with Some v => v | None => snd c n end) e).
      { apply sem_ext. intros n Mn. destruct (assoc n vs) as [v|] eqn:A; [apply HC; apply assoc_pair; exact A|].
        destruct (M n Mn) as [J|J].
        - exfalso. rewrite <- HN in J. destruct (assoc_in_some _ n vs J) as [v B]. congruence.
        - destruct (first_in rows c _ cs n (SPlain (QCol n)) F) as (v & Iv & _ & K).
          + unfold Winq_Proofs.cols_of. apply in_flat_map. exists (n, WCol n). split; [exact J|left; reflexivity].
          + unfold copied. rewrite (assoc_nodup _ n cs v NC Iv). exact K. }
      rewrite SE. apply V_expr. eapply Forall2_weaken; [|exact HV]. intros h v (H1 & _ & H2). split; assumption.
  - rewrite (first_names rows c _ cs F). clear -ND.
    assert (G : forall l, NoDup (map fst l ++ hidden l) -> NoDup (map fst (cols_of l) ++ map fst (finals_of l))).
    { intros l N. assert (Nc := cols_nodup frepr ident ext q l N).
      assert (Nf : NoDup (map fst (finals_of l))).
      { apply nodup_app_l in N. clear Nc. induction l as [|[a i] l IH]; [constructor|]. unfold Winq_Proofs.finals_of in *. cbn [flat_map map fst snd] in *. inversion N as [|? ? N1 N2]; subst.
        specialize (IH N2). destruct i; try exact IH. cbn [app map fst]. constructor; [|exact IH]. intros I. apply N1. apply (finals_names frepr ident ext l). exact I. }
      assert (X : forall n, In n (map fst (cols_of l)) -> ~ In n (map fst (finals_of l))).
      { clear Nc Nf. induction l as [|[a i] l IH]; intros n I; [destruct I|].
        assert (Nl : NoDup (map fst l ++ hidden l)).
        { apply (nodup_split l [(a, i)]). eapply Permutation_NoDup; [|exact N]. apply Permutation_app; [apply Permutation_map; apply (Permutation_cons_append l (a, i))|].
          unfold hidden. rewrite flat_map_app. cbn [flat_map]. rewrite app_nil_r. apply Permutation_app_comm. }
        specialize (IH Nl).
        assert (Na : ~ In a (map fst l)) by (apply nodup_app_l in N; cbn [map fst] in N; inversion N; assumption).
        assert (Hn : forall m, In m (hidden ((a, i) :: l)) -> ~ In m (a :: map fst l)) by (intros m J K; exact (nodup_app_disjoint _ _ _ m N K J)).
        unfold Winq_Proofs.cols_of, Winq_Proofs.finals_of in *. cbn [flat_map fst snd] in *. rewrite map_app in *. intros J. apply in_app_iff in I, J.
        assert (Jl : forall m, In m (map fst (flat_map (fun ai => match snd ai with WExpr e holes => [(fst ai, (map fst holes, compile frepr ident ext e))] | _ => [] end) l)) -> In m (map fst l))
          by (intros m K; apply (finals_names frepr ident ext l); exact K).
        assert (Il : forall m, In m (map fst (cols_of l)) -> In m (map fst l) \/ In m (hidden l)) by (intros m K; apply (cols_names frepr ident ext q l); exact K).
        destruct i as [v|m|e|k|e holes]; cbn [map fst] in I, J;
          try (destruct J as [[]|J]; destruct I as [[<-|[]]|I]; [exact (Na (Jl _ J))|exact (IH n I J)]).
        destruct I as [I|I], J as [J|J].
        - destruct J as [<-|[]]. rewrite map_map in I. apply (Hn a); [|left; reflexivity]. unfold hidden. cbn [flat_map snd wholes]. apply in_app_iff. left. exact I.
        - rewrite map_map in I. apply (Hn n); [|right; apply Jl; exact J]. unfold hidden. cbn [flat_map snd wholes]. apply in_app_iff. left. exact I.
        - destruct J as [<-|[]]. destruct (Il a I) as [K|K]; [exact (Na K)|]. apply (Hn a); [|left; reflexivity]. unfold hidden. cbn [flat_map]. apply in_app_iff. right. exact K.
        - exact (IH n I J). }
      clear N. revert Nc X. generalize (map fst (cols_of l)). induction l0 as [|x r IHr]; intros Nc X; [exact Nf|]. cbn [app]. inversion Nc as [|? ? M1 M2]; subst. constructor.
      - intros I. apply in_app_iff in I as [I|I]; [exact (M1 I)|exact (X x (or_introl eq_refl) I)].
      - apply IHr; [exact M2|]. intros n I. apply X. right. exact I. }
    apply G. exact ND.
  - intros a I. destruct (in_some (finals_of items) a) eqn:S; [|reflexivity]. apply in_some_hidden in S. exfalso. apply (DJ a); [|exact S].
    apply (finals_names frepr ident ext items). exact I.
Qed.
End Run.

(** C213, and statements meeting the hypotheses of C211 and C212. *)
From Coq Require Import SpecFloat Permutation Sorting.Sorted.
From Verif Require Import Base PyVal Utils_Model Calc_Model Expr_Syntax Expr_Model Expr_Spec Expr_Proofs Expr_Props Where_Model Where_Spec Where_Proofs Where_Props
  Having_Model Having_Spec Having_Proofs Having_Props Agg_Spec Reduce_Spec Group_Syntax Group_Model Group_Spec Group_Proofs Group_Props
  Inner_Syntax Inner_Model Inner_Spec Inner_Proofs Inner_Props Select_Model Select_Spec Select_Proofs Select_Props Whole_Syntax Cast_Syntax Cast_Where Cast_Spec Cast_Proofs Whole_Model Whole_Spec Whole_Proofs Whole_Props.
Open Scope Z_scope.

(** An order of values: numbers by their integer part. *)
Definition rank0 (v : val) : Z := match num_of v with Some (Fin m e) => Z.shiftl m e | _ => 0 end.
Definition leq0 (a b : val) : bool := rank0 a <=? rank0 b.
Example leq0_total : total_preorder leq0.
Proof. unfold leq0. split; [intros a b; rewrite !Z.leb_le; lia|intros a b c; rewrite !Z.leb_le; lia]. Qed.
Lemma shift_eq : forall m m' e e', e <= e' -> m = m' * 2 ^ (e' - e) -> Z.shiftl m e = Z.shiftl m' e'.
Proof.
  intros m m' e e' L ->. rewrite <- Z.shiftl_mul_pow2 by lia. rewrite Z.shiftl_shiftl by lia. f_equal. lia.
Qed.
Example leq0_equal : forall a b, pyeq a b = true -> leq0 a b = true /\ leq0 b a = true.
Proof.
  intros a b H. assert (E : rank0 a = rank0 b); [|unfold leq0; rewrite E, Z.leb_refl; auto].
  assert (N_ : num_of a = None -> num_of b = None -> rank0 a = rank0 b) by (unfold rank0; intros -> ->; reflexivity).
  unfold pyeq in H. assert (C : (a = VNone /\ b = VNone) \/ pycmp a b = Ok (Some Eq)).
  { destruct a, b; try (left; split; reflexivity); right; match goal with |- pycmp ?x ?y = _ => destruct (pycmp x y) as [[[]|]|] end; try discriminate H; reflexivity. }
  destruct C as [[-> ->]|C]; [reflexivity|]. unfold pycmp in C. destruct (num_of a) as [x|] eqn:Na, (num_of b) as [y|] eqn:Nb.
  - unfold rank0. rewrite Na, Nb. destruct x as [m e| | |], y as [m' e'| | |]; cbn [ncmp] in C; try discriminate C; try reflexivity.
    injection C as C. apply Z.compare_eq in C. destruct (Z.le_ge_cases e e') as [L|L].
    + rewrite Z.min_l in C by lia. rewrite Z.sub_diag, Z.mul_1_r in C. apply shift_eq; assumption.
    + rewrite Z.min_r in C by lia. rewrite Z.sub_diag, Z.mul_1_r in C. symmetry. apply shift_eq; [lia|symmetry; exact C].
  - destruct a; try discriminate C; discriminate Na.
  - destruct b; destruct a; try discriminate C; discriminate Nb.
  - apply N_; reflexivity.
Qed.

(** The functions of the examples: + on integers, beside the operators of Calc_Model. *)
Definition with_add (name : text) : option (list val -> val) :=
  if text_eqb name (t "add") then Some (fun l => match l with [VInt a; VInt b] => VInt (a + b) | _ => VNone end) else None.
Definition tab (l : list (Z * Z)) : list row := map (fun ab => r2 (VInt (fst ab)) (VInt (snd ab))) l.
Definition run_ (st : statement) (table : list row) : res (list output) :=
  run_statement fr0 id0 with_add no_lib (fun _ => []) first (fun _ _ => VNone) (fun _ => VNone) nm0 (fun _ => Err OtherError) (fun _ _ => false) leq0 st table.
Notation fn0 := (sql_fn fr0 id0 with_add no_lib).

(** SELECT a AS a, a + b AS x FROM t WHERE a > 1 AND (b = 5 OR a = 4) HAVING x > 3 ORDER BY x DESC, a LIMIT 2 OFFSET 1 *)
Definition st1 : statement := mkstatement [(A, ECol A); (t "x", EBin (t "add") (ECol A) (ECol B))]
  (Some (EAnd (EBin (t "gt") (ECol A) (EConst (VInt 1))) (EParen (EOr (EBin (t "eq") (ECol B) (EConst (VInt 5))) (EBin (t "eq") (ECol A) (EConst (VInt 4)))))))
  [] (Some (EBin (t "gt") (ECol (t "x")) (EConst (VInt 3)))) [(t "x", true); (A, false)] (Some 2) (Some 1).
Lemma compare_leaf : forall tt k a v, comparison_op k = true ->
  cond (EBin k (ECol a) (EConst v)) /\ top_level (fun x => column_left x /\ constant_items (sem tt fn0) x /\ ~ cast_compared x) (EBin k (ECol a) (EConst v)).
Proof.
  intros tt k a v H. split; [apply C_bool; [repeat constructor|apply B_cmp; assumption]|].
  apply T_leaf; [discriminate|discriminate|]. split; [intros ? ? ? X; discriminate|]. split; [intros ? ? X; discriminate|]. intros X. inversion X; discriminate.
Qed.
Example st1_plain : plain_statement num_text fn0 st1.
Proof.
  unfold plain_statement. cbn [st_items st_where st_group st_having st_order st_limit st_offset st1 map fst snd].
  split; [|split; [|split; [reflexivity|split; [|split; [|split]]]]].
  - apply NoDup_cons; [intros [E|[]]; discriminate E|]. apply NoDup_cons; [intros []|apply NoDup_nil].
  - apply Forall_cons; [|apply Forall_cons; [|apply Forall_nil]]; cbn [snd].
    + split; [constructor|]. split; [|discriminate]. intros (x & a & P & H). apply no_parts_col in P. subst. discriminate H.
    + split; [apply X_bin; constructor|]. split; [|discriminate]. intros (x & a & P & H). apply part_inv in P. destruct P as [->|(i & c & K & P)]; [discriminate H|].
      cbn in K. destruct K as [K|[K|[]]]; injection K as <- <-; apply no_parts_col in P; subst; discriminate H.
  - intros e E. injection E as <-. split; [apply C_and; [|apply C_paren, C_or]; apply (compare_leaf num_text); reflexivity|].
    apply T_and; [apply compare_leaf; reflexivity|]. apply T_paren. apply T_leaf; [discriminate|discriminate|]. split; [intros ? ? ? X; discriminate|]. split; [intros ? ? X; discriminate|]. intros X. inversion X.
  - intros e E. injection E as <-. split; [apply HC_cmp; [reflexivity|constructor|constructor]|]. intros n M. apply columns_mentions in M. cbn in M. destruct M as [<-|[]]. right. left. reflexivity.
  - intros n E. injection E as <-. lia.
  - left. apply Forall_cons; [|apply Forall_cons; [|apply Forall_nil]]; cbn [fst].
    + eexists. split; [right; left; reflexivity|]. right. intros [(m & e & [I|[I|[]]] & M)|[(e & E & M)|[(e & x & E & O & N1 & M)|(e & [] & _)]]].
      * injection I as <- <-. apply columns_mentions in M. destruct M as [M|[]]; discriminate M.
      * injection I as <- <-. apply columns_mentions in M. destruct M as [M|[M|[]]]; discriminate M.
      * injection E as <-. apply columns_mentions in M. vm_compute in M. repeat (destruct M as [M|M]; [discriminate M|]). exact M.
      * injection E as <-. inversion O as [| | |k a b [->| ->]| | |]; subst; [apply N1; reflexivity|]. apply columns_mentions in M. destruct M.
    + eexists. split; [left; reflexivity|]. left. reflexivity.
Qed.
Example st1_runs : run_ st1 (tab [(4, 2); (1, 9); (2, 5); (4, 3); (2, 6); (3, 5); (4, 1)]) =
  Ok [[(A, VInt 2); (t "x", VInt 7)]; [(A, VInt 4); (t "x", VInt 7)]].
Proof. vm_compute. reflexivity. Qed.
(** SELECT a AS a, IF(SUM(b) > COUNT( * ), MAX(b), a) AS x, COUNT(DISTINCT b) AS n FROM t WHERE a > 0 GROUP BY a HAVING n > 0 ORDER BY x DESC LIMIT 1 OFFSET 1 *)
Definition st2 : statement := mkstatement (w_items w1) (Some (EBin (t "gt") (ECol A) (EConst (VInt 0)))) (w_group w1)
  (Some (EBin (t "gt") (ECol (t "n")) (EConst (VInt 0)))) [(t "x", true); (A, false)] (Some 2) (Some 1).
Definition table2 : list row := tab [(0, 3); (1, 10); (2, 5); (1, 7); (3, 12); (2, 4)].
Example st2_grouped : grouped_statement num_text fn0 st2.
Proof.
  unfold grouped_statement. cbn [st_items st_where st_group st_having st_order st_limit st_offset st2]. split; [exact w1_plain|]. split; [|split; [|split]].
  - intros e E. injection E as <-. apply compare_leaf. reflexivity.
  - intros e E. injection E as <-. split; [apply HC_cmp; [reflexivity|constructor|constructor]|]. intros n M. apply columns_mentions in M. cbn in M. destruct M as [<-|[]]. right. right. left. reflexivity.
  - intros n E. injection E as <-. lia.
  - apply Forall_cons; [|apply Forall_cons; [|apply Forall_nil]]; cbn [fst].
    + eexists. split; [right; left; reflexivity|]. right. left. exists max_of_b. eexists. split; [|reflexivity]. apply P_if_else. right. left. constructor.
    + eexists. split; [left; reflexivity|]. left. split; [reflexivity|]. eexists. left. reflexivity.
Qed.
Example st2_fresh : forall p alias e, In (alias, e) (st_items st2) -> ~ mentions (nm0 p) e.
Proof. exact w1_fresh. Qed.
Example st2_summable : summable_groups num_text fn0 equal_keys st2 table2.
Proof.
  unfold summable_groups. intros r Ir. split; [vm_compute in Ir; repeat (destruct Ir as [<-|Ir]; [vm_compute; reflexivity|]); destruct Ir|].
  intros m e x a Ie P H. assert (Ia : In a [mkagg FSum false (Some (ECol B)); mkagg FMax false (Some (ECol B)); mkagg FCount true (Some (ECol B)); mkagg FCount false None]).
  { cbn [st_items st2 w_items w1 In] in Ie. destruct Ie as [Ie|[Ie|[Ie|[]]]]; injection Ie as <- <-.
    - apply no_parts_col in P. subst. discriminate H.
    - apply chosen_parts in P. cbn [In] in P. repeat (destruct P as [<-|P]; [cbn in H; first [discriminate H|injection H as <-; cbn; tauto]|]). destruct P.
    - apply part_inv in P. destruct P as [->|(i & c & K & P)]; [cbn in H; injection H as <-; cbn; tauto|]. cbn in K. destruct K as [K|[]]. injection K as <- <-. apply no_parts_col in P. subst. discriminate H. }
  set (rows := filter (fun y => equal_keys (key_of num_text fn0 st2 r) (key_of num_text fn0 st2 y)) (filter (holds num_text fn0 (st_where st2)) table2)).
  assert (NE : rows <> []).
  { assert (J : In r rows); [|intros Z; rewrite Z in J; destruct J]. unfold rows. apply filter_In. split; [exact Ir|]. apply filter_In in Ir as [Ir _].
    vm_compute in Ir. repeat (destruct Ir as [<-|Ir]; [vm_compute; reflexivity|]). destruct Ir. }
  assert (Ints : forall y, In y rows -> exists n, y B = VInt n).
  { intros y J. unfold rows in J. apply filter_In in J as [J _]. apply filter_In in J as [J _]. cbn [table2 tab map In] in J. repeat (destruct J as [<-|J]; [eexists; reflexivity|]). destruct J. }
  clearbody rows. clear - Ia NE Ints.
  assert (NN : forall n, nonnull (VInt n :: []) = [VInt n]) by reflexivity.
  assert (C : comparable (nonnull (map (fun y : row => y B) rows))).
  { intros x y Hx Hy. unfold nonnull in Hx, Hy. apply filter_In in Hx as [Hx _], Hy as [Hy _]. apply in_map_iff in Hx as (x' & <- & Hx), Hy as (y' & <- & Hy).
    destruct (Ints _ Hx) as [n ->], (Ints _ Hy) as [m ->]. eexists. reflexivity. }
  destruct Ia as [<-|[<-|[<-|[<-|[]]]]]; unfold summable, argument; cbn [a_fun a_distinct a_arg sem].
  - split.
    + destruct rows as [|y rows]; [destruct (NE eq_refl)|]. cbn [map]. destruct (Ints y (or_introl eq_refl)) as [n ->]. discriminate.
    + clear - Ints. induction rows as [|y rows IH]; [exists 0; apply sums_nil|]. cbn [map]. destruct (Ints y (or_introl eq_refl)) as [n ->].
      destruct IH as [z S]; [intros u J; apply Ints; right; exact J|]. exists (n + z). apply sums_cons; [reflexivity|exact S].
  - exact C.
  - intros x Hx. unfold nonnull in Hx. apply filter_In in Hx as [Hx _]. apply in_map_iff in Hx as (x' & <- & Hx). destruct (Ints _ Hx) as [n ->]. cbn. unfold pyeq. cbn. rewrite Z.compare_refl. reflexivity.
  - exact Logic.I.
Qed.
Example st2_runs : run_ st2 table2 = Ok [[(A, VInt 1); (t "x", VInt 10); (t "n", VInt 2)]; [(A, VInt 2); (t "x", VInt 5); (t "n", VInt 2)]].
Proof. vm_compute. reflexivity. Qed.

(** C213.  [SELECT a + 1 AS x FROM t HAVING x + 0 > 1 ORDER BY x] is not sorted by x: HAVING makes the name x one of the columns of the table, so the source
    is asked to sort by a column the table does not have. *)
Definition plus (n : text) (z : Z) : expr := EBin (t "add") (ECol n) (EConst (VInt z)).
Definition st3 : statement := mkstatement [(t "x", plus A 1)] None [] (Some (EBin (t "gt") (plus (t "x") 0) (EConst (VInt 1)))) [(t "x", false)] None None.
Example st3_body : plain_body num_text fn0 st3 /\ Forall (fun nd => calculated_with st3 (fst nd) \/ ~ In (fst nd) (map fst (st_items st3))) (st_order st3).
Proof.
  split.
  - unfold plain_body. cbn [st_items st_where st_group st_having st_order st_limit st_offset st3 map fst snd]. split; [|split; [|split; [reflexivity|split; [|split]]]].
    + apply NoDup_cons; [intros []|apply NoDup_nil].
    + apply Forall_cons; [|apply Forall_nil]. cbn [snd]. split; [apply X_bin; constructor|]. split; [|discriminate]. intros (x & a & P & H). apply part_inv in P. destruct P as [->|(i & c & K & P)]; [discriminate H|].
      cbn in K. destruct K as [K|[K|[]]]; injection K as <- <-; apply part_inv in P; destruct P as [->|(i & c & K & _)]; [discriminate H|destruct K|discriminate H|destruct K].
    + intros e E. discriminate E.
    + intros e E. injection E as <-. split; [apply HC_cmp; [reflexivity|apply X_bin; constructor|constructor]|]. intros n M. apply columns_mentions in M. cbn in M. destruct M as [<-|[]]. left. reflexivity.
    + intros n E. discriminate E.
  - apply Forall_cons; [|apply Forall_nil]. left. right. eexists. exists (plus (t "x") 0). split; [reflexivity|]. split; [apply O_bin; left; reflexivity|]. split; [discriminate|]. split; [reflexivity|].
    apply M_bin. left. apply M_col.
Qed.
Theorem having_alias_order_refuted : exists st table out,
  plain_body num_text fn0 st /\ (forall nd, In nd (st_order st) -> exists e, In (fst nd, e) (st_items st)) /\
  run_ st table = Ok out /\ ~ plain_result num_text fn0 leq0 st table out.
Proof.
  exists st3, (tab [(3, 0); (2, 0)]), [[(t "x", VInt 4)]; [(t "x", VInt 3)]]. split; [apply st3_body|]. split; [intros nd [<-|[]]; eexists; left; reflexivity|]. split; [vm_compute; reflexivity|].
  intros (rows & S & E). destruct S as (P & S & _). cbn [st_where st3 st_order filter holds] in P, S.
  replace (filter (holds num_text fn0 None) (tab [(3, 0); (2, 0)])) with (tab [(3, 0); (2, 0)]) in P by reflexivity.
  change (paged (st_limit st3) (st_offset st3)) with (fun l : list (list (text * val)) => l) in E. cbv beta in E.
  assert (L : length rows = 2%nat) by (apply Permutation_length in P; rewrite <- P; reflexivity).
  assert (In_ : forall r, In r rows -> r = r2 (VInt 3) (VInt 0) \/ r = r2 (VInt 2) (VInt 0)).
  { intros r I. apply (Permutation_in _ (Permutation_sym P)) in I. cbn in I. destruct I as [<-|[<-|[]]]; auto. }
  destruct rows as [|r [|r' [|? ?]]]; try discriminate L.
  inversion S as [|? ? S1 F]; subst. inversion F as [|? ? F1 _]; subst.
  destruct (In_ r (or_introl eq_refl)) as [->| ->], (In_ r' (or_intror (or_introl eq_refl))) as [->| ->];
    [vm_compute in E; discriminate E|vm_compute in F1; discriminate F1|vm_compute in E; discriminate E|vm_compute in E; discriminate E].
Qed.
Print Assumptions having_alias_order_refuted.

(** C214.  In [SELECT a + 1 AS b FROM t WHERE b] the name b is the item of the select list, not the column of the table. *)
Definition st4 : statement := mkstatement [(B, plus A 1)] (Some (ECol B)) [] None [] None None.
Theorem where_alias_refuted : exists st table out, run_ st table = Ok out /\ ~ plain_result num_text fn0 leq0 st table out.
Proof.
  exists st4, (tab [(3, 0); (-1, 5)]), [[(B, VInt 4)]]. split; [vm_compute; reflexivity|].
  intros (rows & S & E). destruct S as (P & _). replace (filter (holds num_text fn0 (st_where st4)) (tab [(3, 0); (-1, 5)])) with (tab [(-1, 5)]) in P by (vm_compute; reflexivity).
  apply Permutation_length_1_inv in P. subst. vm_compute in E. discriminate E.
Qed.
Print Assumptions where_alias_refuted.

(** C215-C217: CAST of a column in WHERE, ORDER BY and GROUP BY. *)
From Coq Require Import SpecFloat Permutation Sorting.Sorted.
From Verif Require Import Base PyVal Utils_Model Calc_Model Expr_Syntax Expr_Model Expr_Spec Expr_Proofs Expr_Props Where_Model Where_Spec Where_Proofs Where_Props
  Agg_Model Having_Model Having_Spec Having_Proofs Having_Props Union_Proofs Agg_Spec Reduce_Spec Group_Syntax Group_Model Group_Spec Group_Proofs Group_Props
  Inner_Syntax Inner_Model Inner_Spec Inner_Proofs Inner_Props Select_Model Select_Spec Select_Proofs Select_Props Whole_Syntax Cast_Syntax Cast_Where Cast_Spec Cast_Proofs
  Cast_Model Whole_Model Whole_Spec Whole_Proofs Whole_Props Whole_Cases.
Open Scope Z_scope.

(** C215.  CAST of a column, compared in WHERE with something without columns, is read as the column alone. *)
Theorem where_cast_column : forall frepr ident ext lib tt str_of pick nested raw state_name other rematch leK,
  ext (t "neg") = None -> total_preorder leK ->
  let fn := sql_fn frepr ident ext lib in
  forall st table e e', st_where st = Some e -> uncast e e' -> (forall n, mentions n e -> ~ In 124%N n) ->
  let st' := with_where (Some e') st in
  run_statement frepr ident ext lib str_of pick nested raw state_name other rematch leK st table =
  run_statement frepr ident ext lib str_of pick nested raw state_name other rematch leK st' table /\
  (plain_statement tt fn st' -> exists out,
     run_statement frepr ident ext lib str_of pick nested raw state_name other rematch leK st table = Ok out /\ plain_result tt fn leK st' table out).
Proof.
  intros fr id ext lib tt so pick nested raw nm other rm leK NN TK fn st table e e' W U B st'.
  assert (E : run_statement fr id ext lib so pick nested raw nm other rm leK st table = run_statement fr id ext lib so pick nested raw nm other rm leK st' table).
  { unfold run_statement, compile_statement. replace (where_parts fr id ext (st_where st)) with (where_parts fr id ext (st_where st')); [destruct st; reflexivity|].
    rewrite W. unfold st', with_where. cbn [st_where]. unfold where_parts.
    rewrite (where_uncast _ plain_name (fun n => n) e e' U), (where_uncast _ plain_name (fun n => n) e' e' (clean_uncast _ (uncast_clean _ _ U))); [reflexivity|left; reflexivity|].
    right. intros n M. unfold plain_name, has_bar. apply negb_true_iff. destruct (existsb (N.eqb 124) n) eqn:X; [|reflexivity]. exfalso. apply existsb_exists in X as (c & I & C).
    apply N.eqb_eq in C. subst c. exact (B n M I). }
  split; [exact E|]. intros P. rewrite E. apply plain_select; assumption.
Qed.
Print Assumptions where_cast_column.
(** Every condition has such a form. *)
Theorem uncast_exists : forall e, exists e', uncast e e'.
Proof. exact uncast_total. Qed.

(** C216.  CAST of a column in ORDER BY is read as the column alone. *)
Theorem order_cast_column : forall frepr ident ext lib tt str_of pick nested raw state_name other rematch leK,
  ext (t "neg") = None -> total_preorder leK ->
  let fn := sql_fn frepr ident ext lib in
  forall st table order names, Forall2 (fun ed nd => (fst ed = ECol (fst nd) \/ cast_column (fst ed) = Some (fst nd)) /\ snd ed = snd nd) order names ->
  plain_statement tt fn (with_order names st) -> exists out,
    run_cast frepr ident ext lib str_of pick nested raw state_name other rematch leK st order table = Ok out /\ plain_result tt fn leK (with_order names st) table out.
Proof.
  intros fr id ext lib tt so pick nested raw nm other rm leK NN TK fn st table order names F P.
  assert (E : order_names order = Ok names).
  { clear P. induction F as [|[e d] [n d'] order names [O D] F IH]; [reflexivity|]. cbn [fst snd] in *. subst d'. cbn [order_names]. unfold order_name.
    replace (as_column e) with (Some n) by (destruct O as [->|O]; [reflexivity|symmetry; apply as_cast; exact O]). cbn [bind]. rewrite IH. reflexivity. }
  unfold run_cast. rewrite E. cbn [bind]. apply plain_select; assumption.
Qed.
Print Assumptions order_cast_column.

(** C217.  CAST of a column in GROUP BY is read as the column alone when an item of that name stands before the aggregates. *)
Definition plain_item_ (i : item) : Prop := match i with IConst _ | ICol _ | ICalc _ => True | _ => False end.
Lemma free_plain : forall nm e, ~ uses_aggregate e -> plain_item_ (select_item nm e).
Proof. intros nm e U. rewrite free_item by exact U. destruct (is_const e); [exact Logic.I|]. destruct e; exact Logic.I. Qed.
Section Keys.
Variable frepr : spec_float -> text.
Variable ident : val -> val -> bool.
Variable ext : text -> option (list val -> val).
Variables group group' : list group_item.
Variable names : list text.
Hypothesis R : Forall2 (fun k k' => k = k' \/ exists e n, k = KeyExp e /\ cast_column e = Some n /\ k' = KeyCol false n /\ In n names) group group'.

Lemma same_keys : forall schema, (forall n, In n names -> In n (map fst schema)) -> compile_keys frepr ident ext schema group = compile_keys frepr ident ext schema group'.
Proof.
  intros schema S. pose proof R as R'. clear R. assert (E : map (compile_key frepr ident ext schema) group = map (compile_key frepr ident ext schema) group').
  { induction R' as [|k k' g g' [->|(e & n & -> & C & -> & I)] F IH]; [reflexivity|cbn [map]; rewrite IH; reflexivity|]. cbn [map]. rewrite IH. f_equal.
    cbn [compile_key]. rewrite C. destruct (assoc n schema) as [[]|] eqn:A; try reflexivity. exfalso. apply S in I. apply assoc_in_some in I as (x & X). congruence. }
  unfold compile_keys. destruct R'; [reflexivity|exact E].
Qed.
Lemma same_items : forall l cfg, (forall n, In n names -> In n (map fst (g_schema cfg)) \/ exists before rest, l = before ++ rest /\ Forall (fun ni => plain_item_ (snd ni)) before /\ In n (map fst before)) ->
  compile_items frepr ident ext group cfg l = compile_items frepr ident ext group' cfg l.
Proof.
  induction l as [|[a i] l IH]; intros cfg H; [reflexivity|]. cbn [compile_items].
  assert (Keep : forall n x, In n (map fst (g_schema cfg)) \/ n = a -> In n (map fst (dict_set a x (g_schema cfg)))).
  { intros n x J. clear - J. induction (g_schema cfg) as [|[k v] s IHs]; cbn [dict_set map fst In] in *.
    - destruct J as [[]| ->]. left. reflexivity.
    - destruct (text_eqb a k) eqn:T; cbn [map fst In].
      + apply text_eqb_spec in T. subst k. destruct J as [[J|J]| ->]; auto.
      + destruct J as [[J|J]|J]; auto. }
  assert (Next : forall x ag ke, plain_item_ i \/ (forall n, In n names -> In n (map fst (g_schema cfg))) ->
    compile_items frepr ident ext group (mkconfig (dict_set a x (g_schema cfg)) ag ke) l = compile_items frepr ident ext group' (mkconfig (dict_set a x (g_schema cfg)) ag ke) l).
  { intros x ag ke C. apply IH. intros n I. cbn [g_schema]. destruct (H n I) as [J|(before & rest & E & F & J)]; [left; apply Keep; left; exact J|].
    destruct before as [|[b j] before]; [destruct J|]. cbn [app] in E. injection E as <- <- E. cbn [map fst In] in J. destruct J as [<-|J]; [left; apply Keep; right; reflexivity|].
    right. exists before, rest. inversion F; subst. auto. }
  destruct i as [v|n|e|g|e holes]; cbn [compile_item bind]; try (apply Next; left; exact Logic.I).
  all: assert (S : forall m, In m names -> In m (map fst (g_schema cfg))) by
    (intros m I; destruct (H m I) as [J|([|[b j] before] & rest & E & F & J)]; [exact J|destruct J|cbn [app] in E; injection E as <- <- E; inversion F as [|? ? F1 F2]; destruct F1]).
  all: unfold compile_aggregate_column; rewrite (same_keys _ S).
  - destruct (compile_parts frepr ident ext [([], g)]) as [ps|]; [|reflexivity]. cbn [bind]. apply Next. right. exact S.
  - destruct (compile_parts frepr ident ext holes) as [ps|]; [|reflexivity]. cbn [bind]. apply Next. right. exact S.
Qed.
End Keys.

Theorem group_cast_column : forall frepr ident ext lib tt str_of pick nested raw state_name other rematch leK,
  ext (t "neg") = None -> total_preorder leK ->
  (forall a b, pyeq a b = true -> leK a b = true /\ leK b a = true) ->
  (forall rs, rs <> [] -> In (pick rs) rs) -> (forall p q, state_name p = state_name q -> p = q) ->
  let fn := sql_fn frepr ident ext lib in
  forall st group' table before rest, st_items st = before ++ rest -> Forall (fun ne => ~ uses_aggregate (snd ne)) before ->
  Forall2 (fun k k' => k = k' \/ exists e n, k = KeyExp e /\ cast_column e = Some n /\ k' = KeyCol false n /\ In n (map fst before)) (st_group st) group' ->
  let st' := with_group group' st in
  run_statement frepr ident ext lib str_of pick nested raw state_name other rematch leK st table =
  run_statement frepr ident ext lib str_of pick nested raw state_name other rematch leK st' table /\
  (grouped_statement tt fn st' -> (forall p alias e, In (alias, e) (st_items st') -> ~ mentions (state_name p) e) -> summable_groups tt fn equal_keys st' table ->
   exists out, run_statement frepr ident ext lib str_of pick nested raw state_name other rematch leK st table = Ok out /\
               grouped_result tt fn str_of leK equal_keys st' table out).
Proof.
  intros fr id ext lib tt so pick nested raw nm other rm leK NN TK EK PK INJ fn st group' table before rest E F R st'.
  assert (EQ : run_statement fr id ext lib so pick nested raw nm other rm leK st table = run_statement fr id ext lib so pick nested raw nm other rm leK st' table).
  { assert (C : compile_written nm fr id ext (mkwritten (st_items st) (st_group st)) = compile_written nm fr id ext (mkwritten (st_items st') (st_group st'))).
    { unfold compile_written, compile_query, query_of, st', with_group. cbn [w_items w_group q_items q_group st_items st_group]. eapply same_items; [exact R|].
      intros n I. right. rewrite E, map_app. eexists _, _. split; [reflexivity|]. rewrite map_map. split; [|exact I].
      clear - F. induction F; constructor; [apply free_plain; assumption|assumption]. }
    assert (K : flat_map key_columns (st_group st) = flat_map key_columns group').
    { clear - R. induction R as [|k k' g g' [->|(e & n & -> & C & -> & I)] F IH]; [reflexivity|cbn [flat_map]; rewrite IH; reflexivity|]. cbn [flat_map]. rewrite IH. cbn [key_columns].
      unfold operand_columns. rewrite (as_cast _ _ C). reflexivity. }
    assert (N : is_nil (st_group st) = is_nil group') by (destruct R; reflexivity).
    assert (S : forall cfg p h, select_by fr id ext lib rm (where_parts fr id ext (st_where st)) st cfg p h = select_by fr id ext lib rm (where_parts fr id ext (st_where st')) st' cfg p h).
    { intros cfg p h. unfold select_by, columns_by, aggregate_part, st', with_group. cbn [st_items st_where st_group st_having st_order st_limit st_offset]. rewrite K, N. reflexivity. }
    unfold run_statement, run_plan, compile_statement, compile_by. rewrite C. destruct (compile_written nm fr id ext (mkwritten (st_items st') (st_group st'))) as [cfg|]; [|reflexivity]. cbn [bind].
    change (st_where st') with (st_where st). change (st_having st') with (st_having st).
    destruct (residual fr id ext cfg (fst (where_parts fr id ext (st_where st)))) as [p|]; [|reflexivity]. cbn [bind].
    set (hv := match st_having st with None => _ | Some e => _ end). destruct hv as [h|]; [|reflexivity]. cbn [bind].
    specialize (S cfg p h). change (st_where st') with (st_where st) in S. rewrite S. reflexivity. }
  split; [exact EQ|]. intros G FR SG. rewrite EQ. apply grouped_select; assumption.
Qed.
Print Assumptions group_cast_column.

(** ** Witnesses *)
(** CAST AS BOOL of whole numbers. *)
Definition cast_lib (k : text) (l : list val) : val :=
  match l with
  | [VInt n] => if text_eqb k (t "CAST AS BOOL") then VBool (negb (n =? 0)) else VNone
  | _ => VNone
  end.
Definition fn_c := sql_fn fr0 id0 with_add cast_lib.
Definition run_c (st : statement) (order : list (expr * bool)) (table : list row) : res (list output) :=
  run_cast fr0 id0 with_add cast_lib (fun _ => []) first (fun _ _ => VNone) (fun _ => VNone) nm0 (fun _ => Err OtherError) (fun _ _ => false) leq0 st order table.
Definition bool_a : expr := cast_as (t "BOOL") (ECol A).
(** SELECT b AS b FROM t WHERE CAST(a AS BOOL) = 1: the row with a = 2 is not found. *)
Definition st5 : statement := mkstatement [(B, ECol B)] (Some (EBin (t "eq") bool_a (EConst (VInt 1)))) [] None [] None None.
Theorem where_cast_refuted : exists st table out,
  run_c st [] table = Ok out /\ ~ plain_result num_text fn_c leq0 st table out.
Proof.
  exists st5, (tab [(2, 7)]), []. split; [vm_compute; reflexivity|]. intros (rows & S & E). destruct S as (P & _).
  replace (filter (holds num_text fn_c (st_where st5)) (tab [(2, 7)])) with (tab [(2, 7)]) in P by (vm_compute; reflexivity).
  apply Permutation_length_1_inv in P. subst. vm_compute in E. discriminate E.
Qed.
Print Assumptions where_cast_refuted.
(** SELECT b AS b FROM t ORDER BY CAST(a AS BOOL), b: sorted by a. *)
Definition st6 : statement := mkstatement [(B, ECol B)] None [] None [] None None.
Definition order6 : list (expr * bool) := [(bool_a, false); (ECol B, false)].
Theorem order_cast_refuted : exists st order table out,
  run_c st order table = Ok out /\
  ~ exists rows, sorted_as (lex_le leq0 (map (fun ed => ((fun r => sem num_text fn_c r (fst ed)), snd ed)) order)) table rows /\
                 out = map (result_row num_text fn_c st) rows.
Proof.
  exists st6, order6, (tab [(2, 1); (1, 2)]), [[(B, VInt 2)]; [(B, VInt 1)]]. split; [vm_compute; reflexivity|]. intros (rows & S & E). destruct S as (P & S & _).
  apply Permutation_sym in P. assert (L : length rows = 2%nat) by (apply Permutation_length in P; exact P).
  destruct rows as [|r [|r' [|? ?]]]; try discriminate L. assert (I := Permutation_in r P (or_introl eq_refl)). assert (I' := Permutation_in r' P (or_intror (or_introl eq_refl))).
  cbn [tab map In fst snd] in I, I'. inversion S as [|? ? S1 F]; subst. inversion F as [|? ? F1 _]; subst.
  destruct I as [<-|[<-|[]]], I' as [<-|[<-|[]]]; try (vm_compute in E; discriminate E). vm_compute in F1. discriminate F1.
Qed.
Print Assumptions order_cast_refuted.
(** SELECT a AS a, COUNT( * ) AS n FROM t GROUP BY CAST(a AS BOOL): two groups instead of one. *)
Definition st7 : statement := mkstatement [(A, ECol A); (t "n", EFun (t "count") [])] None [KeyExp bool_a] None [] None None.
Lemma filter_true : forall A (l : list A), filter (fun _ => true) l = l.
Proof. induction l as [|x l IH]; [reflexivity|cbn [filter]; rewrite IH; reflexivity]. Qed.
Theorem group_cast_refuted : exists st table out,
  run_c st [] table = Ok out /\ ~ grouped_result num_text fn_c (fun _ => []) leq0 equal_keys st table out.
Proof.
  exists st7, (tab [(1, 0); (2, 0)]), [[(A, VInt 1); (t "n", VInt 1)]; [(A, VInt 2); (t "n", VInt 1)]]. split; [vm_compute; reflexivity|].
  intros (rows & grows & sorted & P & G & P2 & _ & _ & E).
  replace (filter (holds num_text fn_c (st_where st7)) (tab [(1, 0); (2, 0)])) with (tab [(1, 0); (2, 0)]) in P by (vm_compute; reflexivity).
  assert (L : length grows = 1%nat).
  { assert (K : length (keys equal_keys (map (fun r => (key_of num_text fn_c st7 r, r)) rows)) = 1%nat).
    { apply Permutation_sym in P. assert (Len : length rows = 2%nat) by (apply Permutation_length in P; exact P).
      destruct rows as [|r [|r' [|? ?]]]; try discriminate Len. assert (I := Permutation_in r P (or_introl eq_refl)). assert (I' := Permutation_in r' P (or_intror (or_introl eq_refl))).
      cbn [tab map In fst snd] in I, I'. destruct I as [<-|[<-|[]]], I' as [<-|[<-|[]]]; vm_compute; reflexivity. }
    unfold group_rows in G. clear - G K. set (ks := keys _ _) in *. clearbody ks. destruct ks as [|k [|? ?]]; try discriminate K. inversion G as [|? ? ? ? _ F]; subst. inversion F; subst. reflexivity. }
  apply Permutation_length in P2. unfold paged in E. cbn [st7 st_having st_limit st_offset] in P2, E. subst sorted.
  change (fun o => holds num_text fn_c None (column o)) with (fun _ : list (text * val) => true) in P2. rewrite filter_true in P2.
  rewrite L in P2. discriminate P2.
Qed.
Print Assumptions group_cast_refuted.

(** ** Statements meeting the hypotheses *)
Lemma bool_a_cast : cast_column bool_a = Some A.
Proof. reflexivity. Qed.
Example st5_uncast : uncast (EBin (t "eq") bool_a (EConst (VInt 1))) (EBin (t "eq") (ECol A) (EConst (VInt 1))).
Proof. eapply U_left; [reflexivity|reflexivity|]. intros n M. inversion M. Qed.
Example st5_names : forall n, mentions n (EBin (t "eq") bool_a (EConst (VInt 1))) -> ~ In 124%N n.
Proof. intros n M I. apply columns_mentions in M. cbn in M. destruct M as [<-|[]]. cbn in I. destruct I as [I|[]]; discriminate I. Qed.
Example st5_plain : plain_statement num_text fn_c (with_where (Some (EBin (t "eq") (ECol A) (EConst (VInt 1)))) st5).
Proof.
  unfold plain_statement, with_where. cbn [st_items st_where st_group st_having st_order st_limit st_offset st5 map fst snd].
  split; [apply NoDup_cons; [intros []|apply NoDup_nil]|]. split; [|split; [reflexivity|split; [|split; [|split]]]].
  - apply Forall_cons; [|apply Forall_nil]. cbn [snd]. split; [constructor|]. split; [|discriminate]. intros (x & a & P & H). apply no_parts_col in P. subst. discriminate H.
  - intros e [= <-]. split; [apply C_bool; [repeat constructor|apply B_cmp; reflexivity]|]. apply T_leaf; [discriminate|discriminate|].
    split; [intros ? ? ? X; discriminate|]. split; [intros ? ? X; discriminate|]. intros X. inversion X; discriminate.
  - intros e E. discriminate E.
  - intros n E. discriminate E.
  - left. apply Forall_nil.
Qed.
Example order6_names : Forall2 (fun ed nd => (fst ed = ECol (fst nd) \/ cast_column (fst ed) = Some (fst nd)) /\ snd ed = snd nd) order6 [(A, false); (B, false)].
Proof. apply Forall2_cons; [split; [right; reflexivity|reflexivity]|]. apply Forall2_cons; [split; [left; reflexivity|reflexivity]|apply Forall2_nil]. Qed.
Example st6_plain : plain_statement num_text fn_c (with_order [(A, false); (B, false)] st6).
Proof.
  unfold plain_statement, with_order. cbn [st_items st_where st_group st_having st_order st_limit st_offset st6 map fst snd].
  split; [apply NoDup_cons; [intros []|apply NoDup_nil]|]. split; [|split; [reflexivity|split; [|split; [|split]]]].
  - apply Forall_cons; [|apply Forall_nil]. cbn [snd]. split; [constructor|]. split; [|discriminate]. intros (x & a & P & H). apply no_parts_col in P. subst. discriminate H.
  - intros e E. discriminate E.
  - intros e E. discriminate E.
  - intros n E. discriminate E.
  - right. repeat (apply Forall_cons; [intros e [I|[]]; inversion I; reflexivity|]). apply Forall_nil.
Qed.
Example st7_before : st_items st7 = [(A, ECol A)] ++ [(t "n", EFun (t "count") [])] /\ Forall (fun ne => ~ uses_aggregate (snd ne)) [(A, ECol A)] /\
  Forall2 (fun k k' => k = k' \/ exists e n, k = KeyExp e /\ cast_column e = Some n /\ k' = KeyCol false n /\ In n (map fst [(A, ECol A)])) (st_group st7) [KeyCol false A].
Proof.
  split; [reflexivity|]. split.
  - apply Forall_cons; [|apply Forall_nil]. intros (x & a & P & H). apply no_parts_col in P. subst. discriminate H.
  - apply Forall2_cons; [|apply Forall2_nil]. right. exists bool_a, A. repeat split. left. reflexivity.
Qed.
(** The run of the first: the rows with a = 1, not those with a <> 0. *)
Example st5_runs : run_c st5 [] (tab [(2, 7); (1, 8); (0, 9)]) = Ok [[(B, VInt 8)]].
Proof. vm_compute. reflexivity. Qed.
(** Without an item of the name of the column the cast counts: SELECT COUNT( * ) AS n FROM t GROUP BY CAST(a AS BOOL). *)
Example cast_counts : run_c (mkstatement [(t "n", EFun (t "count") [])] None [KeyExp bool_a] None [] None None) [] (tab [(2, 7); (1, 8); (0, 9)]) = Ok [[(t "n", VInt 2)]; [(t "n", VInt 1)]].
Proof. vm_compute. reflexivity. Qed.

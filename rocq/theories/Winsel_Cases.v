(** Statements meeting the hypotheses of Winsel_Props, and one which is refused. *)
From Coq Require Import SpecFloat Permutation Sorting.Sorted.
From Verif Require Import Base PyVal Utils_Model Calc_Model Expr_Syntax Expr_Model Expr_Spec Expr_Proofs Expr_Props Where_Model Where_Spec Where_Proofs Where_Props
  Having_Model Having_Spec Having_Proofs Having_Props Agg_Spec Reduce_Spec Group_Syntax Group_Model Group_Spec Group_Proofs Group_Props
  Inner_Syntax Inner_Model Inner_Spec Inner_Proofs Inner_Props Select_Model Select_Spec Select_Proofs Select_Props Whole_Syntax Cast_Syntax Cast_Where Cast_Spec Cast_Proofs Whole_Model Whole_Spec Whole_Proofs Whole_Props
  Winq_Syntax Winq_Model Winq_Spec Winq_Proofs Winq_Props Winsel_Syntax Winsel_Model Winsel_Spec Winsel_Proofs Winsel_Props.
Open Scope Z_scope.

Definition run_w (st : wstatement) (table : list row) : res (list output) :=
  run_wstatement fr0 id0 no_ext no_lib known0 str0 le0 nest0 fn0 (fun _ => Err OtherError) (fun _ _ => false) st table.
(** SELECT a, SUM(c) OVER (PARTITION BY a ORDER BY b) AS s, ROW_NUMBER() OVER w AS n, SUM(c) OVER () > 1 AS x FROM t
    WHERE c > 5 HAVING n > 0 WINDOW w AS (ORDER BY b DESC) ORDER BY s DESC, a LIMIT 2 *)
Definition ws1 : wstatement := mkwstatement q1 (Some (EBin (t "gt") (ECol C) (EConst (VInt 5)))) (Some (EBin (t "gt") (ECol (t "n")) (EConst (VInt 0))))
  [(t "s", true); (A, false)] (Some 2) None.
Definition table1 : list row := [r3 1 2 10; r3 2 5 3; r3 1 1 30].
Lemma leaf0 : forall tt k a v, comparison_op k = true ->
  cond (EBin k (ECol a) (EConst v)) /\ top_level (fun x => column_left x /\ constant_items (sem tt (sql_fn fr0 id0 no_ext no_lib)) x /\ ~ cast_compared x) (EBin k (ECol a) (EConst v)).
Proof.
  intros tt k a v H. split; [apply C_bool; [repeat constructor|apply B_cmp; assumption]|].
  apply T_leaf; [discriminate|discriminate|]. split; [intros ? ? ? X; discriminate|]. split; [intros ? ? X; discriminate|]. intros X. inversion X; discriminate.
Qed.
Example ws1_windowed : windowed_statement num_text (sql_fn fr0 id0 no_ext no_lib) known0 ws1.
Proof.
  split; [exact q1_plain|]. split; [exists (t "s"); eexists; split; [right; left; reflexivity|discriminate]|].
  split; [intros e E; injection E as <-; apply leaf0; reflexivity|]. split.
  - intros e E. injection E as <-. split; [apply HC_cmp; [reflexivity|constructor|constructor]|]. intros n M. apply columns_mentions in M. cbn in M. destruct M as [<-|[]].
    eexists. split; [right; right; left; reflexivity|exact Logic.I].
  - split; [intros n E; injection E as <-; lia|]. left. apply Forall_cons; [|apply Forall_cons; [|apply Forall_nil]]; cbn [fst].
    + eexists. split; [right; left; reflexivity|]. split; [exact Logic.I|]. right. left. eexists. reflexivity.
    + eexists. split; [left; reflexivity|]. split; [exact Logic.I|]. left. reflexivity.
Qed.
Example ws1_fits : forall rows, Permutation (filter (holds num_text (sql_fn fr0 id0 no_ext no_lib) (ws_where ws1)) table1) rows ->
  rows_fit fr0 id0 no_ext no_lib num_text le0 sql_frame (ws_query ws1) rows /\ no_ties fr0 id0 no_ext no_lib num_text le0 (ws_query ws1) rows.
Proof.
  intros rows P. change (filter _ table1) with [r3 1 2 10; r3 1 1 30] in P.
  assert (Two : rows = [r3 1 2 10; r3 1 1 30] \/ rows = [r3 1 1 30; r3 1 2 10]) by (apply Permutation_length_2_inv; exact P). clear P.
  change (ws_query ws1) with q1.
  assert (AL : forall x, In x (numbered rows) -> exists z, snd x C = VInt z).
  { destruct Two as [-> | ->]; intros x [<-|[<-|[]]]; eexists; reflexivity. }
  assert (KS : forall x c alias i k w, In x (numbered rows) -> In c (numbered rows) -> In (alias, i) (wq_items q1) -> In k (wcalls i) -> window_of (wq_windows q1) k = Some w ->
    equal_keys (part_key value0 w (snd c)) (part_key value0 w (snd x)) = true).
  { intros x c alias i k w Ix Ic I J W.
    destruct I as [I|[I|[I|[I|[]]]]]; injection I as <- <-; (destruct J as [<-|[]] || destruct J); injection W as <-;
      destruct Two as [-> | ->]; destruct Ic as [<-|[<-|[]]], Ix as [<-|[<-|[]]]; vm_compute; reflexivity. }
  split.
  - intros c alias i k w Ic I J W. split; [exact (KS c c alias i k w Ic Ic I J W)|].
    intros a Fk.
    assert (Ea : a = sum_of C).
    { destruct I as [I|[I|[I|[I|[]]]]]; injection I as <- <-; (destruct J as [<-|[]] || destruct J); cbn [w_fun] in Fk; (discriminate Fk || (inversion Fk; reflexivity)). }
    assert (Kc : In c (partition value0 equal_keys w rows (snd c))) by (apply filter_In; split; [exact Ic|exact (KS c c alias i k w Ic Ic I J W)]).
    subst a. split.
    + intros _. apply (int_rows_summable (map snd (partition value0 equal_keys w rows (snd c)))).
      * intros Z. apply map_eq_nil in Z. exact (eq_ind _ (fun l => In c l) Kc _ Z).
      * apply Forall_forall. intros r Ir. apply in_map_iff in Ir as (x & <- & Ix). apply AL. apply filter_In in Ix. apply Ix.
    + intros bef aft _ SA. apply (int_rows_summable (map snd (sql_frame (before_or_tied value0 le0 w) bef c aft))).
      * intros Z. apply map_eq_nil in Z. assert (Ic' : In c (sql_frame (before_or_tied value0 le0 w) bef c aft)).
        { apply filter_In. split; [apply in_app_iff; right; left; reflexivity|].
          assert (TW : total_preorder (before_or_tied value0 le0 w)) by (apply lex_total; exact le0_total). destruct (proj1 TW c c) as [H|H]; exact H. }
        exact (eq_ind _ (fun l => In c l) Ic' _ Z).
      * apply Forall_forall. intros r Ir. apply in_map_iff in Ir as (x & <- & Ix). apply AL. apply filter_In in Ix as [Ix _].
        destruct SA as [P _]. apply (Permutation_in x (Permutation_sym P)) in Ix. apply filter_In in Ix. apply Ix.
  - intros alias i k w a x y I J W Fk O Ix Iy K L1 L2.
    destruct I as [I|[I|[I|[I|[]]]]]; injection I as <- <-; (destruct J as [<-|[]] || destruct J); cbn [w_fun] in Fk; try discriminate Fk; injection W as <-; try (exfalso; apply O; reflexivity).
    destruct Two as [-> | ->]; destruct Ix as [<-|[<-|[]]], Iy as [<-|[<-|[]]]; try reflexivity; exfalso; first [discriminate K|discriminate L1|discriminate L2].
Qed.
Example ws1_runs : run_w ws1 table1 = Ok
  [[(A, VInt 1); (t "s", VInt 40); (t "n", VInt 1); (t "x", VInt 1)]; [(A, VInt 1); (t "s", VInt 30); (t "n", VInt 2); (t "x", VInt 1)]].
Proof. vm_compute. reflexivity. Qed.
(** LIMIT counts the rows of the result: it does not reduce the rows over which the window functions are computed. *)
Definition ws2 : wstatement := mkwstatement q1 None None [(B, false)] (Some 1) (Some 1).
Example ws2_windowed : windowed_statement num_text (sql_fn fr0 id0 no_ext no_lib) known0 ws2.
Proof.
  split; [exact q1_plain|]. split; [exists (t "s"); eexists; split; [right; left; reflexivity|discriminate]|].
  split; [intros e E; discriminate E|]. split; [intros e E; discriminate E|]. split; [intros n E; injection E as <-; lia|]. right.
  apply Forall_cons; [|apply Forall_nil]. cbn [fst]. split; [intros i [E|[E|[E|[E|[]]]]]; discriminate E|]. intros [E|[]]; discriminate E.
Qed.
Example ws2_runs : run_w ws2 rows1 = Ok [[(A, VInt 1); (t "s", VInt 40); (t "n", VInt 2); (t "x", VInt 1)]].
Proof. vm_compute. reflexivity. Qed.

(** An expression around a window function cannot be named in ORDER BY, nor in HAVING. *)
Theorem window_expression_named_refuted : exists q n e holes,
  plain_wquery known0 q /\ In (n, WExpr e holes) (wq_items q) /\
  run_w (mkwstatement q None None [] None None) rows1 <> Err CompileError /\
  run_w (mkwstatement q None None [(n, false)] None None) rows1 = Err CompileError /\
  run_w (mkwstatement q None (Some (EBin (t "gt") (ECol n) (EConst (VInt 0)))) [] None None) rows1 = Err CompileError.
Proof.
  exists q1, (t "x"), (EBin (t "gt") (ECol hole) (EConst (VInt 1))), [(hole, mkwcall (WAgg (sum_of C)) None (mkwindow [] [] None))].
  split; [exact q1_plain|]. split; [right; right; right; left; reflexivity|]. split; [vm_compute; discriminate|]. split; vm_compute; reflexivity.
Qed.
Print Assumptions window_expression_named_refuted.

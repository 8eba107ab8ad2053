(** C231, C232: scripts. *)
From Coq Require Import SpecFloat Permutation Sorting.Sorted.
From Verif Require Import Base PyVal Str_Model Str_Proofs Utils_Model Calc_Model Expr_Syntax Expr_Model Expr_Spec Expr_Proofs Expr_Props Where_Model Where_Spec Where_Props Having_Model Having_Spec Having_Proofs Reduce_Spec Group_Syntax Group_Model Group_Spec Group_Proofs Group_Props
  Inner_Syntax Inner_Model Inner_Spec Inner_Proofs Inner_Props Select_Model Select_Spec Select_Props Whole_Syntax Cast_Syntax Cast_Where Cast_Spec Cast_Proofs Whole_Model Whole_Spec Whole_Proofs Whole_Props Whole_Cases Collapse_Model Collapse_Spec Collapse_Props Collapse_Cases
  Alias_Model Alias_Spec Alias_Proofs Alias_Props Union_Model With_Props Insert_Model Insert_Spec Full_Syntax Full_Spec Full_Model Full_Proofs Full_Props Script_Syntax Script_Spec Script_Model Script_Proofs.

(** The temporary tables have different names, are empty before the script, and are not named in it. *)
Definition new_names (temp : nat -> text) (cs : list command) (tables : text -> list (list (text * val))) : Prop :=
  (forall i j, temp i = temp j -> i = j) /\ (forall j, tables (memory_table (temp j)) = []) /\
  forall c j, In c cs -> ~ writes (memory_table (temp j)) c /\ ~ command_reads (memory_table (temp j)) c /\ ~ In (temp j) (with_names c).
(** A name of WITH is used in one statement of the script only, which does not write a table of that name; there is no such table before. *)
Definition separate_names (cs : list command) (tables : text -> list (list (text * val))) : Prop :=
  (forall c, In c cs -> NoDup (with_names c)) /\
  (forall i j ci cj name, nth_error cs i = Some ci -> nth_error cs j = Some cj -> In name (with_names ci) ->
     ~ writes (memory_table name) cj /\ (i <> j -> ~ In name (with_names cj) /\ ~ command_reads (memory_table name) cj)) /\
  forall c name, In c cs -> In name (with_names c) -> tables (memory_table name) = [].

Lemma separate_intro : forall temp pk cs used, Forall (good temp pk) cs -> Forall (avoids used) cs ->
  (forall i j ci cj, (i < j)%nat -> nth_error cs i = Some ci -> nth_error cs j = Some cj -> avoids (with_names ci) cj) -> separate temp pk used cs.
Proof.
  intros temp pk cs. induction cs as [|c cs IH]; intros used G A H; [exact Logic.I|]. inversion G as [|? ? G1 G2]; subst. inversion A as [|? ? A1 A2]; subst. cbn [separate].
  split; [exact G1|]. split; [exact A1|]. apply IH; [exact G2| |].
  - apply Forall_forall. intros c' I name In1. apply in_app_or in In1. destruct In1 as [In1|In1].
    + apply In_nth_error in I as (j & Hj). exact (H 0%nat (S j) c c' ltac:(lia) eq_refl Hj name In1).
    + rewrite Forall_forall in A2. exact (A2 c' I name In1).
  - intros i j ci cj L Hi Hj. exact (H (S i) (S j) ci cj ltac:(lia) Hi Hj).
Qed.
Lemma clash_intro : forall temp pk ctes, no_prefix temp pk ctes -> forall name q, In (name, q) ctes -> clash_free temp pk name q.
Proof.
  intros temp pk ctes NP name q I. split; [|split].
  - intros n R (x & E). destruct (NP name q x I) as (H & _ & _). exact (H n R E).
  - intros j (x & E). destruct (NP name q x I) as (_ & H & _). exact (H j E).
  - intros (x & E). destruct (NP name q x I) as (_ & _ & H). exact (H E).
Qed.

(** C231.  A script of queries, INSERT ... SELECT, INSERT ... VALUES and DELETE: each statement sees the tables as the statements before it left them; a query shows its rows
    and changes nothing, an INSERT appends its rows, a DELETE takes away the rows for which its condition is TRUE. *)
Theorem script_answers : forall frepr ident ext lib tt str_of primary pick pick1 nested raw state_name other rematch leK filt temp pk,
  ext (t "neg") = None -> total_preorder leK -> (forall a b, pyeq a b = true -> leK a b = true /\ leK b a = true) ->
  (forall rs, rs <> [] -> In (pick rs) rs) -> (forall rs, rs <> [] -> In (pick1 rs) rs) -> (forall p q, state_name p = state_name q -> p = q) ->
  (forall ty v, is_number_type v ty -> filt ty v = v) ->
  let fn := sql_fn frepr ident ext lib in
  forall cs tables, new_names temp cs tables -> separate_names cs tables -> (forall c, In c cs -> no_prefix temp pk (with_part c)) ->
  script_proper tt fn str_of leK equal_keys (fun n => exists p, n = state_name p) tables cs ->
  exists shown final final',
    run_script frepr ident ext lib str_of primary pick pick1 nested raw state_name other rematch leK filt temp pk cs 0 tables = Ok (shown, final) /\
    script_means tt fn str_of leK equal_keys tables cs shown final' /\
    forall n, (forall j, n <> memory_table (temp j)) -> (forall c name, In c cs -> In name (with_names c) -> n <> memory_table name) -> final n = final' n.
Proof.
  intros fr id ext lib tt so pr pick pick1 nested raw nm other rm leK filt temp pk NN TK EQ HP HP1 INJ HF fn cs tables (TI & TE & TN) (SD & SP & SE) NP P.
  destruct (script_runs fr id ext lib tt NN so pr pick pick1 nested raw nm other rm leK TK EQ HP HP1 INJ filt HF temp pk TI cs [] 0%nat tables tables) as (shown & final & final' & R & M & S).
  - apply separate_intro.
    + apply Forall_forall. intros c I. split; [|split; [exact (SD c I)|split]].
      * intros name q' Iq. split; [|split].
        -- intros n Rn j ->. destruct (TN c j I) as (_ & H & _). apply H. destruct c as [ctes q|n' ctes q|? ? ?|? ?]; try (destruct Iq; fail); right; exists name, q'; split; assumption.
        -- exact (clash_intro temp pk _ (NP c I) name q' Iq).
        -- intros j ->. destruct (TN c j I) as (_ & _ & H). apply H. unfold with_names. apply in_map_iff. exists (temp j, q'). split; [reflexivity|exact Iq].
      * intros n [W|Rd] j ->; destruct (TN c j I) as (H1 & H2 & _); [exact (H1 W)|exact (H2 Rd)].
      * intros name Iw. apply In_nth_error in I as (i & Hi). exact (proj1 (SP i i c c name Hi Hi Iw)).
    + apply Forall_forall. intros c I name [].
    + intros i j ci cj L Hi Hj name Iw. destruct (SP i j ci cj name Hi Hj Iw) as [W H]. destruct (H ltac:(lia)) as [H1 H2]. split; [exact H1|]. split; [exact W|exact H2].
  - intros i j ci cj L Hi Hj name Iw. exact (proj1 (SP j i cj ci name Hj Hi Iw)).
  - intros j _. apply TE.
  - intros n _ _. reflexivity.
  - exact SE.
  - exact P.
  - exists shown, final, final'. split; [exact R|]. split; [exact M|]. intros n Hn Hw. apply S; [exact Hn|]. intros name I. rewrite app_nil_r in I. apply in_concat in I as (l & I & Il).
    apply in_map_iff in I as (c & <- & I). exact (Hw c name I Il).
Qed.
Print Assumptions script_answers.

(** A DELETE with a condition that cannot be left to the data source (see C40) is refused, and ends the script; nothing is deleted. *)
Theorem script_delete_refused : forall frepr ident ext lib str_of primary pick pick1 nested raw state_name other rematch leK filt temp pk n e r k tables,
  top_level (fun x => ~ cast_compared x) e -> ~ top_level (pushable plain_name) e ->
  run_script frepr ident ext lib str_of primary pick pick1 nested raw state_name other rematch leK filt temp pk (DeleteFrom n (Some e) :: r) k tables = Err CompileError.
Proof.
  intros fr id ext lib so pr pick pick1 nested raw nm other rm leK filt temp pk n e r k tables C NP. cbn [run_script run_command]. unfold deleted, where_parts.
  rewrite (where_uncast _ plain_name (fun n => n) e e) by (first [left; reflexivity|apply clean_uncast; exact C]).
  pose proof (delete_accepted (compile fr id ext) plain_name (fun n => n) e) as A. unfold compile_delete in A. destruct (where_cond _ _ _ e []) as [[m [x|]] q]; [reflexivity|].
  exfalso. apply NP. apply A. eexists. reflexivity.
Qed.
Print Assumptions script_delete_refused.
Example script_delete_refused_case : let e := EBin (t "gt") (ECol (t "a")) (ECol (t "b")) in
  top_level (fun x => ~ cast_compared x) e /\ ~ top_level (pushable plain_name) e.
Proof.
  split.
  - apply T_leaf; [discriminate|discriminate|]. intros C. inversion C; discriminate.
  - intros T0. inversion T0 as [| |? _ _ [(k & a & b & n & E & _ & _ & [[Ha Hb]|[Ha Hb]])|(n & l & E & _)]]; subst; [injection E as _ Ea Eb; subst; discriminate|injection E as _ Ea Eb; subst; discriminate|discriminate].
Qed.

(** C232.  What a name of WITH stands for, whatever is in the table of that name: the rows that are there, followed by those of its query; and these stay in the table. *)
Theorem with_name_keeps : forall frepr ident ext lib tt str_of primary pick pick1 nested raw state_name other rematch leK temp pk,
  ext (t "neg") = None -> total_preorder leK -> (forall a b, pyeq a b = true -> leK a b = true /\ leK b a = true) ->
  (forall rs, rs <> [] -> In (pick rs) rs) -> (forall rs, rs <> [] -> In (pick1 rs) rs) -> (forall p q, state_name p = state_name q -> p = q) ->
  let fn := sql_fn frepr ident ext lib in
  forall ctes q tables, new_tables temp ctes q tables -> no_prefix temp pk ctes ->
  with_left_proper tt fn str_of leK equal_keys (fun n => exists p, n = state_name p) tables ctes q ->
  exists out, execute frepr ident ext lib str_of primary pick pick1 nested raw state_name other rematch leK temp pk ctes q tables = Ok out /\
              with_left tt fn str_of leK equal_keys tables ctes q out.
Proof.
  intros fr id ext lib tt so pr pick pick1 nested raw nm other rm leK temp pk NN TK EQ HP HP1 INJ fn ctes q tables (TI & TE & TR & TN) NP P.
  destruct (run_to_ok fr id ext lib tt NN so pr pick pick1 nested raw nm other rm leK TK EQ HP HP1 INJ temp pk TI None ctes q 0%nat tables) as (tb1 & k' & out & R & M & _ & _ & _).
  - intros name q' I. split; [|split].
    + intros n Rn j. apply (TR j n q'); [right; apply in_map_iff; exists (name, q'); split; [reflexivity|exact I]|exact Rn].
    + exact (clash_intro temp pk ctes NP name q' I).
    + intros j. apply (TN j). apply in_map_iff. exists (name, q'). split; [reflexivity|exact I].
  - intros n Rn j. apply (TR j n q); [left; reflexivity|exact Rn].
  - discriminate.
  - intros j _. apply TE.
  - exact P.
  - exists out. split; [|exact M]. unfold execute, compile_statement. unfold run_to, compile_from in R.
    destruct (compile_with _ _ _ _ _ _ _ _ _ _ _ _ _ _ _ _ ctes 0) as [cs k]. unfold bind in *.
    assert (O : forall f i o d k2, compile_query fr id ext lib so pr pick pick1 nested raw nm other rm leK temp q k = (Task f i o d, k2) -> o = None).
    { intros f i o d k2 C. assert (NT : no_temp temp q) by (intros n Rn j; apply (TR j n q); [left; reflexivity|exact Rn]).
      destruct (query_compiled fr id ext lib tt NN so pr pick pick1 nested raw nm other rm leK TK EQ HP HP1 INJ temp TI q k (Task f i o d) k2 NT C) as (_ & f' & i' & d' & E & _). congruence. }
    destruct (compile_query _ _ _ _ _ _ _ _ _ _ _ _ _ _ _ q k) as [[f i o d] k2]. rewrite (O f i o d k2 eq_refl). cbn [to_table] in R.
    assert (G : forall x : res store, match x with Ok a => Ok (cleared temp 0 k2 (fst a), snd a, k2) | Err e => Err e end = Ok (tb1, out, k') -> match x with Ok a => Ok (snd a) | Err e => Err e end = Ok out).
    { intros [s|e] E; [|discriminate E]. congruence. }
    exact (G _ R).
Qed.
Print Assumptions with_name_keeps.

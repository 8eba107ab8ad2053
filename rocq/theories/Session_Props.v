(** C247, C232: scripts over queries of all kinds. *)
From Coq Require Import SpecFloat Permutation Sorting.Sorted.
From Verif Require Import Base PyVal Str_Model Str_Proofs Utils_Model Calc_Model Expr_Syntax Expr_Model Expr_Spec Expr_Proofs Expr_Props Where_Spec Having_Model Having_Spec Having_Proofs Reduce_Spec
  Group_Syntax Group_Model Group_Spec Group_Proofs Group_Props Inner_Syntax Inner_Model Inner_Spec Inner_Proofs Inner_Props Select_Model Select_Spec Select_Props
  Joins_Syntax Joins_Spec Joins_Model Joins_Props Joinsel_Syntax Joinsel_Spec Joinsel_Model Joinsel_Props Joinsel_Cases Joingrp_Syntax Joingrp_Spec Joingrp_Model Joingrp_Props Joingrp_Cases Joingrp_Accept
  Whole_Syntax Cast_Syntax Whole_Model Whole_Spec Whole_Proofs Whole_Props Collapse_Model Collapse_Spec Collapse_Props Alias_Model Alias_Spec Alias_Proofs Alias_Props Union_Model
  Winq_Syntax Winq_Model Winq_Spec Winq_Props Winsel_Syntax Winsel_Model Winsel_Spec Winsel_Props
  Where_Model Cast_Where Cast_Spec Cast_Proofs Where_Props Insert_Model Insert_Spec Full_Syntax Full_Model Full_Proofs Script_Spec Script_Model
  Compose_Syntax Compose_Spec Compose_Model Compose_Proofs Compose_Windows Compose_Props Session_Syntax Session_Spec Session_Model Session_Proofs.

(** The temporary tables have different names, are empty before the script, and are not named in it. *)
Definition new_names (temp : nat -> text) (cs : list command) (tables : text -> list (list (text * val))) : Prop :=
  (forall i j, temp i = temp j -> i = j) /\ (forall j, tables (memory_table (temp j)) = []) /\
  forall c j, In c cs -> ~ writes (memory_table (temp j)) c /\ ~ command_reads (memory_table (temp j)) c /\ ~ In (temp j) (with_names c).
(** A name of WITH is used in one statement of the script only, which does not write a table of that name; there is no such table before. *)
Definition separate_names (cs : list command) (tables : text -> list (list (text * val))) : Prop :=
  (forall c, In c cs -> NoDup (with_names c)) /\
  (forall i j ci cj name, nth_error cs i = Some ci -> nth_error cs j = Some cj -> In name (with_names ci) ->
     ~ writes (memory_table name) cj /\ (i <> j -> ~ In name (with_names cj) /\ ~ command_reads (memory_table name) cj)) /\
  forall c name, In c cs -> In name (with_names c) -> tables (memory_table name) = [].

Lemma separate_intro : forall temp pk cs used, Forall (good temp pk) cs -> Forall (avoids used) cs ->
  (forall i j ci cj, (i < j)%nat -> nth_error cs i = Some ci -> nth_error cs j = Some cj -> avoids (with_names ci) cj) -> separate temp pk used cs.
Proof.
  intros temp pk cs. induction cs as [|c cs IH]; intros used G A H; [exact Logic.I|]. inversion G as [|? ? G1 G2]; subst. inversion A as [|? ? A1 A2]; subst. cbn [separate].
  split; [exact G1|]. split; [exact A1|]. apply IH; [exact G2| |].
  - apply Forall_forall. intros c' I name In1. apply in_app_or in In1. destruct In1 as [In1|In1].
    + apply In_nth_error in I as (j & Hj). exact (H 0%nat (S j) c c' ltac:(lia) eq_refl Hj name In1).
    + rewrite Forall_forall in A2. exact (A2 c' I name In1).
  - intros i j ci cj L Hi Hj. exact (H (S i) (S j) ci cj ltac:(lia) Hi Hj).
Qed.
Lemma clash_intro : forall temp pk ctes, no_prefix temp pk ctes -> forall name q, In (name, q) ctes -> clash_free temp pk name q.
Proof.
  intros temp pk ctes NP name q I. split; [|split].
  - intros n R (x & E). destruct (NP name q x I) as (H & _ & _). exact (H n R E).
  - intros j (x & E). destruct (NP name q x I) as (_ & H & _). exact (H j E).
  - intros (x & E). destruct (NP name q x I) as (_ & _ & H). exact (H E).
Qed.

(** C247.  A script of queries (of the kinds of C242), INSERT ... SELECT, INSERT ... VALUES and DELETE: each statement sees the tables as the statements before it left
    them; a query shows its rows and changes nothing, an INSERT appends its rows, a DELETE takes away the rows for which its condition is TRUE. *)
Theorem session_answers : forall frepr ident ext lib tt known str_of primary pick pick1 nested raw state_name other rematch leK wfn cmpv fuel filt temp pk,
  ext (t "neg") = None -> total_preorder leK -> (forall a b, pyeq a b = true -> leK a b = true /\ leK b a = true) ->
  (forall rs, rs <> [] -> In (pick rs) rs) -> (forall rs, rs <> [] -> In (pick1 rs) rs) -> (forall p q, state_name p = state_name q -> p = q) ->
  null_rejecting cmpv -> eq_symmetric cmpv ->
  (forall ty v, is_number_type v ty -> filt ty v = v) ->
  let fn := sql_fn frepr ident ext lib in
  let answers := core_answers tt fn str_of leK equal_keys wfn cmpv in
  let acceptable := core_acceptable frepr ident ext lib tt known (fun n => exists p, n = state_name p) leK cmpv in
  let select := run_core frepr ident ext lib known str_of primary pick pick1 nested raw state_name other rematch leK wfn cmpv fuel in
  forall cs tables, new_names temp cs tables -> separate_names cs tables -> (forall c, In c cs -> no_prefix temp pk (with_part c)) ->
  session_proper tt fn answers acceptable tables cs ->
  exists shown final final',
    run_session frepr ident ext lib select filt temp pk cs 0 tables = Ok (shown, final) /\
    session_means tt fn answers tables cs shown final' /\
    forall n, (forall j, n <> memory_table (temp j)) -> (forall c name, In c cs -> In name (with_names c) -> n <> memory_table name) -> final n = final' n.
Proof.
  intros fr id ext lib tt kn so pr pick pick1 nested raw nm other rm leK wfn cmpv fuel filt temp pk NN TK EQ HP HP1 INJ NR SY HF fn answers acceptable select cs tables (TI & TE & TN) (SD & SP & SE) NP P.
  assert (CO : forall c sh ls out, acceptable c sh ls -> answers c sh ls out -> regular_core c -> NoDup (core_names c sh) /\ forall o, In o out -> map fst o = core_names c sh) by apply columns_ok.
  assert (SO : forall c sh ls, acceptable c sh ls -> exists out, select c sh ls = Ok out /\ answers c sh ls out) by (intros c sh ls A; apply (select_ok fr id ext lib tt kn so pr pick pick1 nested raw nm other rm leK wfn cmpv fuel); assumption).
  assert (SS : forall c from ls, ~ is_star c -> select c (map (shape_by schema) from) ls = select c (shapes from) ls) by apply select_shapes.
  destruct (session_runs fr id ext lib tt NN answers acceptable CO select SO SS filt HF temp pk TI cs [] 0%nat tables tables) as (shown & final & final' & R & M & S).
  - apply separate_intro.
    + apply Forall_forall. intros c I. split; [|split; [exact (SD c I)|split]].
      * intros name q' Iq. split; [|split].
        -- intros n Rn j ->. destruct (TN c j I) as (_ & H & _). apply H. destruct c as [ctes q|n' ctes q|? ? ?|? ?]; try (destruct Iq; fail); right; exists name, q'; split; assumption.
        -- exact (clash_intro temp pk _ (NP c I) name q' Iq).
        -- intros j ->. destruct (TN c j I) as (_ & _ & H). apply H. unfold with_names. apply in_map_iff. exists (temp j, q'). split; [reflexivity|exact Iq].
      * intros n [W|Rd] j ->; destruct (TN c j I) as (H1 & H2 & _); [exact (H1 W)|exact (H2 Rd)].
      * intros name Iw. apply In_nth_error in I as (i & Hi). exact (proj1 (SP i i c c name Hi Hi Iw)).
    + apply Forall_forall. intros c I name [].
    + intros i j ci cj L Hi Hj name Iw. destruct (SP i j ci cj name Hi Hj Iw) as [W H]. destruct (H ltac:(lia)) as [H1 H2]. split; [exact H1|]. split; [exact W|exact H2].
  - intros i j ci cj L Hi Hj name Iw. exact (proj1 (SP j i cj ci name Hj Hi Iw)).
  - intros j _. apply TE.
  - intros n _ _. reflexivity.
  - exact SE.
  - exact P.
  - exists shown, final, final'. split; [exact R|]. split; [exact M|]. intros n Hn Hw. apply S; [exact Hn|]. intros name I. rewrite app_nil_r in I. apply in_concat in I as (l & I & Il).
    apply in_map_iff in I as (c & <- & I). exact (Hw c name I Il).
Qed.
Print Assumptions session_answers.

(** C232.  What a name of WITH stands for, whatever is in the table of that name: the rows that are there, followed by those of its query. *)
Theorem session_with_name : forall frepr ident ext lib tt known str_of primary pick pick1 nested raw state_name other rematch leK wfn cmpv fuel temp pk,
  ext (t "neg") = None -> total_preorder leK -> (forall a b, pyeq a b = true -> leK a b = true /\ leK b a = true) ->
  (forall rs, rs <> [] -> In (pick rs) rs) -> (forall rs, rs <> [] -> In (pick1 rs) rs) -> (forall p q, state_name p = state_name q -> p = q) ->
  null_rejecting cmpv -> eq_symmetric cmpv ->
  let fn := sql_fn frepr ident ext lib in
  let answers := core_answers tt fn str_of leK equal_keys wfn cmpv in
  let acceptable := core_acceptable frepr ident ext lib tt known (fun n => exists p, n = state_name p) leK cmpv in
  let select := run_core frepr ident ext lib known str_of primary pick pick1 nested raw state_name other rematch leK wfn cmpv fuel in
  forall ctes q tables, new_tables temp ctes q tables -> no_prefix temp pk ctes ->
  with_left_proper answers acceptable tables ctes q ->
  exists out, execute select temp pk ctes q tables = Ok out /\ with_left answers tables ctes q out.
Proof.
  intros fr id ext lib tt kn so pr pick pick1 nested raw nm other rm leK wfn cmpv fuel temp pk NN TK EQ HP HP1 INJ NR SY fn answers acceptable select ctes q tables (TI & TE & TR & TN) NP P.
  assert (CO : forall c sh ls out, acceptable c sh ls -> answers c sh ls out -> regular_core c -> NoDup (core_names c sh) /\ forall o, In o out -> map fst o = core_names c sh) by apply columns_ok.
  assert (SO : forall c sh ls, acceptable c sh ls -> exists out, select c sh ls = Ok out /\ answers c sh ls out) by (intros c sh ls A; apply (select_ok fr id ext lib tt kn so pr pick pick1 nested raw nm other rm leK wfn cmpv fuel); assumption).
  assert (SS : forall c from ls, ~ is_star c -> select c (map (shape_by schema) from) ls = select c (shapes from) ls) by apply select_shapes.
  destruct (run_to_ok answers acceptable CO select SO SS temp pk TI None ctes q 0%nat tables) as (tb1 & k' & out & R & M & _ & _ & _).
  - intros name q' I. split; [|split].
    + intros n Rn j. apply (TR j n q'); [right; apply in_map_iff; exists (name, q'); split; [reflexivity|exact I]|exact Rn].
    + exact (clash_intro temp pk ctes NP name q' I).
    + intros j. apply (TN j). apply in_map_iff. exists (name, q'). split; [reflexivity|exact I].
  - intros n Rn j. apply (TR j n q); [left; reflexivity|exact Rn].
  - discriminate.
  - intros j _. apply TE.
  - exact P.
  - exists out. split; [|exact M]. unfold execute, compile_statement. unfold run_to, compile_from in R.
    destruct (compile_with _ _ _ ctes 0) as [cs k]. unfold bind in *.
    assert (O : forall f i o d k2, compile_query select temp q k = (Task f i o d, k2) -> o = None).
    { intros f i o d k2 C. assert (NT : no_temp temp q) by (intros n Rn j; apply (TR j n q); [left; reflexivity|exact Rn]).
      destruct (query_compiled answers acceptable CO select SO SS temp TI q k (Task f i o d) k2 NT C) as (_ & f' & i' & d' & E & _). congruence. }
    destruct (compile_query _ _ q k) as [[f i o d] k2]. rewrite (O f i o d k2 eq_refl). cbn [to_table] in R.
    assert (G : forall x : res store, match x with Ok a => Ok (cleared temp 0 k2 (fst a), snd a, k2) | Err e => Err e end = Ok (tb1, out, k') -> match x with Ok a => Ok (snd a) | Err e => Err e end = Ok out).
    { intros [s|e] E; [|discriminate E]. congruence. }
    exact (G _ R).
Qed.
Print Assumptions session_with_name.

(** C36: UNION, UNION ALL, EXCEPT, INTERSECT. *)
From Coq Require Import Permutation Sorting.Sorted Lia.
From Verif Require Import Base Agg_Model Json_Proofs Union_Model Union_Spec Union_Proofs.

Section Defs.
Context {Row V : Type}.
(** The SELECTs of a query, from left to right, and whether one is parenthesised. *)
Fixpoint selects (q : tree Row V) : list (branch Row V) :=
  match q with TSel b => [b] | TOp _ _ l r => selects l ++ selects r | TParen q => selects q end.
Fixpoint parenthesised (q : tree Row V) : bool :=
  match q with TSel _ => false | TOp _ _ l r => parenthesised l || parenthesised r | TParen _ => true end.
(** The two queries differ at most in the set operators and in the ORDER BY and LIMIT of the whole. *)
Fixpoint same_selects (q q' : tree Row V) : Prop :=
  match q, q' with
  | TSel b, TSel b' => b = b'
  | TOp _ _ l r, TOp _ _ l' r' => same_selects l l' /\ same_selects r r'
  | TParen q, TParen q' => same_selects q q'
  | _, _ => False
  end.
(** The result of a SELECT with named columns. *)
Definition result (schema : list (text * (Row -> V))) (rows : list Row) : table V :=
  mktable (map fst schema) (map (fun r => map (fun c => snd c r) schema) rows).
Definition result_of (b : branch Row V) : table V :=
  match b with BCols schema rows => result schema rows | BStar _ => mktable [] [] end.
Definition named (b : branch Row V) : Prop := match b with BCols _ _ => True | BStar _ => False end.
End Defs.

Section Props.
Variables Row V : Type.
Variable null : V.
Implicit Types (q : tree Row V).

Lemma branches_ok q : parenthesised q = false -> branches Row V q = Ok (selects q).
Proof.
  induction q as [b|op m l IHl r IHr|q IH]; cbn [parenthesised branches selects]; intros H; auto; try discriminate.
  apply Bool.orb_false_iff in H. destruct H as [A B]. rewrite (IHl A), (IHr B). reflexivity.
Qed.
Lemma branches_err q : parenthesised q = true -> branches Row V q = Err KeyError.
Proof.
  induction q as [b|op m l IHl r IHr|q IH]; cbn [parenthesised branches]; intros H; try discriminate.
  - destruct (parenthesised l) eqn:A; [rewrite (IHl eq_refl); reflexivity|].
    rewrite (branches_ok l A). cbn in H. rewrite (IHr H). reflexivity.
  - destruct (parenthesised q) eqn:A; [rewrite (IH eq_refl)|rewrite (branches_ok q A)]; reflexivity.
Qed.

(** A parenthesised SELECT is not accepted. *)
Lemma paren_error q : parenthesised q = true -> union Row V null q = Err KeyError.
Proof. intros H. unfold union. rewrite (branches_err q H). reflexivity. Qed.

Lemma branches_shape q : forall q', same_selects q q' -> branches Row V q = branches Row V q'.
Proof.
  induction q as [b|op m l IHl r IHr|q IH]; intros [b'|op' m' l' r'|q']; cbn [same_selects branches]; intros H;
    try contradiction; try (subst; reflexivity).
  - destruct H as [A B]. rewrite (IHl _ A), (IHr _ B). reflexivity.
  - rewrite (IH _ H). reflexivity.
Qed.
(** The result does not depend on the set operators. *)
Lemma operators_same q q' : same_selects q q' -> union Row V null q = union Row V null q'.
Proof. intros H. unfold union. rewrite (branches_shape q q' H). reflexivity. Qed.

(* ---- columns ---- *)
Fixpoint columns (o : option (list text)) (l : list (branch Row V)) : option (list text) :=
  match l with
  | [] => o
  | BStar _ :: r => columns o r
  | BCols schema _ :: r => columns (Some (add_names (match o with None => [] | Some o => o end) (map fst schema))) r
  end.
Lemma compile_columns l : forall o n, fst (compile_branches Row V o n l) = columns o l.
Proof.
  induction l as [|[schema rs|rs] l IH]; intros o n; cbn [compile_branches columns]; auto.
  - change (map fst (fold_left _ _ _)) with (add_names (match o with None => [] | Some o => o end) (map fst schema)).
    destruct n as [u|]; destruct (compile_branches Row V _ _ l) eqn:E; cbn [fst]; [|];
      rewrite <- IH with (n := Some u) || rewrite <- IH with (n := Some (tsort (map fst schema))); rewrite E; reflexivity.
  - destruct (compile_branches Row V o n l) eqn:E. cbn [fst]. rewrite <- (IH o n), E. reflexivity.
Qed.
Lemma columns_some l : forall o, exists e, columns (Some o) l = Some (o ++ e) /\ (NoDup o -> NoDup (o ++ e)) /\
  forall x, In x (o ++ e) <-> In x o \/ exists schema rs, In (BCols schema rs) l /\ In x (map fst schema).
Proof.
  induction l as [|[schema rs|rs] l IH]; intros o; cbn [columns].
  - exists []. rewrite app_nil_r. split; [reflexivity|]. split; auto. intros x. split; auto.
    intros [H|(? & ? & [] & _)]; auto.
  - destruct (IH (add_names o (map fst schema))) as (e & E & N & I).
    destruct (add_names_prefix (map fst schema) o) as [e' E'].
    exists (e' ++ e). rewrite app_assoc, <- E'. split; [exact E|]. split; [intros H; apply N, add_names_nodup, H|].
    intros x. rewrite I, add_names_in. split.
    + intros [[H|H]|(s & r & H & G)]; [auto|right; exists schema, rs; split; [left; reflexivity|exact H]|].
      right. exists s, r. split; [right; exact H|exact G].
    + intros [H|(s & r & [H|H] & G)]; [auto| |].
      * injection H as -> ->. auto.
      * right. eauto.
  - destruct (IH o) as (e & E & N & I). exists e. split; [exact E|]. split; [exact N|].
    intros x. rewrite I. split; (intros [H|(s & r & H & G)]; [auto|right; exists s, r; split; [|exact G]]).
    + right. exact H.
    + destruct H as [H|H]; [discriminate|exact H].
Qed.
Lemma outer_names o row : map fst (outer_row V null (Some o) row) = o.
Proof. cbn [outer_row]. rewrite map_map. cbn [fst]. apply map_id. Qed.

(** Every row of the result has the names of the first SELECT followed by the other names of the other SELECTs. *)
Lemma union_columns q schema rs rest : parenthesised q = false -> selects q = BCols schema rs :: rest ->
  NoDup (map fst schema) ->
  exists others rows, union Row V null q = Ok rows /\ NoDup (map fst schema ++ others) /\
    (forall n, In n (map fst schema ++ others) <-> exists b, In b (selects q) /\ In n (names (result_of b))) /\
    forall row, In row rows -> map fst row = map fst schema ++ others.
Proof.
  intros H S ND. unfold union. rewrite (branches_ok q H), S. cbn [bind].
  destruct (compile_branches Row V None None (BCols schema rs :: rest)) as [o bs] eqn:E.
  assert (C : o = columns None (BCols schema rs :: rest)) by (rewrite <- (compile_columns _ None None), E; reflexivity).
  cbn [columns] in C. rewrite (add_names_nil _ ND) in C.
  destruct (columns_some rest (map fst schema)) as (e & E1 & N1 & I1). rewrite E1 in C. subst o.
  exists e. eexists. split; [reflexivity|]. split; [apply N1, ND|]. split.
  - intros n. rewrite I1. split.
    + intros [G|(s & r & G1 & G2)]; [exists (BCols schema rs); split; [left; reflexivity|exact G]|].
      exists (BCols s r). split; [right; exact G1|exact G2].
    + intros (b & [G|G] & G2); [subst b; left; exact G2|]. destruct b as [s r|r]; [|destruct G2].
      right. exists s, r. split; assumption.
  - intros row R. apply in_map_iff in R. destruct R as (r0 & <- & _). apply outer_names.
Qed.

(* ---- rows ---- *)
Lemma compile_same l : forall ns o, 
  (forall b, In b l -> named b /\ Permutation (names (result_of b)) ns) -> incl ns o ->
  compile_branches Row V (Some o) (Some (tsort ns)) l = (Some o, l).
Proof.
  induction l as [|[schema rs|rs] l IH]; intros ns o H I; cbn [compile_branches]; auto.
  - change (map fst (fold_left _ _ _)) with (add_names o (map fst schema)).
    destruct (H _ (or_introl eq_refl)) as [_ P]. cbn in P.
    rewrite add_names_sub by (intros x X; apply I; apply (Permutation_in _ P X)).
    rewrite IH; [|intros b B; apply H; right; exact B|exact I].
    rewrite (tsort_perm _ _ P), pair_same. reflexivity.
  - destruct (H _ (or_introl eq_refl)) as [[] _].
Qed.
Definition relabel (ns : list text) (t : table V) : list (list (text * V)) :=
  map (fun row => map (fun n => (n, match value (names t) n row with Some v => v | None => null end)) ns) (rows t).
Lemma outer_relabel ns b : named b ->
  map (outer_row V null (Some ns)) (branch_rows Row V b) = relabel ns (result_of b).
Proof.
  destruct b as [schema rs|rs]; intros []. unfold relabel. cbn [branch_rows result_of result names rows]. rewrite !map_map.
  apply map_ext. intros r. cbn [outer_row]. apply map_ext. intros n. unfold value.
  rewrite (combine_map _ schema _ (fun f => f r)). reflexivity.
Qed.
(** SELECTs with the same names, in any order: the rows of all SELECTs, one after another, with each value under its own name. *)
Lemma union_same_names q first rest : parenthesised q = false -> selects q = first :: rest ->
  NoDup (names (result_of first)) ->
  (forall b, In b (selects q) -> named b /\ Permutation (names (result_of b)) (names (result_of first))) ->
  union Row V null q = Ok (flat_map (fun b => relabel (names (result_of first)) (result_of b)) (selects q)).
Proof.
  intros H S ND A. unfold union. rewrite (branches_ok q H). cbn [bind].
  assert (compile_branches Row V None None (selects q) = (Some (names (result_of first)), selects q)) as ->.
  { rewrite S in *. destruct first as [schema rs|rs]; [|destruct (A _ (or_introl eq_refl)) as [[] _]].
    cbn [compile_branches]. change (map fst (fold_left _ _ _)) with (add_names [] (map fst schema)).
    cbn [result_of result names] in *. rewrite (add_names_nil _ ND).
    rewrite compile_same; [reflexivity| |apply incl_refl]. intros b B. apply A. right. exact B. }
  f_equal. generalize (names (result_of first)) at 1 2. intros ns.
  assert (N : forall b, In b (selects q) -> named b) by (intros b B; apply A, B).
  clear - N. induction (selects q) as [|b l IH]; cbn [flat_map]; auto.
  rewrite map_app, (outer_relabel ns b) by (apply N; left; reflexivity). f_equal. apply IH.
  intros b' B. apply N. right. exact B.
Qed.
Lemma relabel_same (schema : list (text * (Row -> V))) (rs : list Row) : NoDup (map fst schema) ->
  relabel (map fst schema) (result schema rs) = labelled (result schema rs).
Proof.
  intros ND. unfold relabel, labelled. apply map_ext_in. intros row R. unfold value.
  cbn [names result]. cbn [rows result] in R. apply in_map_iff in R. destruct R as (r & <- & _).
  rewrite (combine_map _ schema _ (fun f => f r)). induction schema as [|[k f] schema IH]; cbn [map fst snd]; auto.
  cbn [map fst] in ND. inversion ND; subst. cbn [assoc]. rewrite text_eqb_refl. f_equal.
  etransitivity; [|exact (IH H2)]. apply map_ext_in. intros n I.
  destruct (text_eqb n k) eqn:E; auto. apply text_eqb_spec in E. subst. contradiction.
Qed.
(** SELECTs with the same names in the same order: exactly SQL's UNION ALL. *)
Lemma union_all_same_columns q ns : parenthesised q = false -> NoDup ns ->
  (forall b, In b (selects q) -> named b /\ names (result_of b) = ns) ->
  union Row V null q = Ok (labelled (union_all (map result_of (selects q)))).
Proof.
  intros H ND A. destruct (selects q) as [|first rest] eqn:S.
  { exfalso. clear - S. induction q; cbn in S; try discriminate; auto. apply app_eq_nil in S. tauto. }
  assert (NF : names (result_of first) = ns) by (apply A; left; reflexivity).
  rewrite (union_same_names q first rest H S); rewrite ?S.
  - f_equal. rewrite NF. unfold labelled, union_all. cbn [map names rows]. rewrite NF.
    change (result_of first :: map result_of rest) with (map result_of (first :: rest)).
    clear - A ND. induction (first :: rest) as [|b l IH]; cbn [flat_map map]; auto. rewrite map_app.
    destruct (A b (or_introl eq_refl)) as [N E]. f_equal; [|apply IH; intros c C; apply A; right; exact C].
    destruct b as [schema rs|rs]; [|destruct N]. cbn [result_of] in *. cbn [names result] in E. subst ns.
    apply relabel_same, ND.
  - rewrite NF. exact ND.
  - intros b B. destruct (A b B) as [N E]. split; [exact N|]. rewrite E, NF. apply Permutation_refl.
Qed.

(** SELECT *: the rows are the rows of the sources, one after another. *)
Lemma union_star q : parenthesised q = false -> (forall b, In b (selects q) -> exists rs, b = BStar rs) ->
  union Row V null q = Ok (flat_map (fun b => match b with BStar rs => rs | _ => [] end) (selects q)).
Proof.
  intros H A. unfold union. rewrite (branches_ok q H). cbn [bind].
  assert (compile_branches Row V None None (selects q) = (None, selects q)) as ->.
  { clear H. induction (selects q) as [|b l IH]; cbn [compile_branches]; auto.
    destruct (A b (or_introl eq_refl)) as [rs ->]. rewrite IH; [reflexivity|]. intros b B. apply A. right. exact B. }
  f_equal. induction (selects q) as [|b l IH]; cbn [flat_map map]; auto.
  destruct (A b (or_introl eq_refl)) as [rs ->]. cbn [branch_rows]. rewrite map_app. f_equal.
  - clear. induction rs; cbn; congruence.
  - apply IH. intros b B. apply A. right. exact B.
Qed.

(** Two SELECTs with different names: in a row of the second, the column of the first with the [i]-th smallest name has the value of the
    second's column with the [i]-th smallest name, unless that was overwritten before. *)
Lemma union_pairing op mods s1 r1 s2 r2 u s :
  NoDup (map fst s1) -> NoDup (map fst s2) ->
  Permutation u (map fst s1) -> StronglySorted (fun a b => text_le a b = true) u ->
  Permutation s (map fst s2) -> StronglySorted (fun a b => text_le a b = true) s ->
  exists rows1 f, union Row V null (TOp op mods (TSel (BCols s1 r1)) (TSel (BCols s2 r2))) = Ok (rows1 ++ map f r2) /\
    length rows1 = length r1 /\
    forall i a b c r, nth_error u i = Some a -> nth_error s i = Some b ->
      (forall j, (j < i)%nat -> nth_error u j = Some b -> nth_error s j = Some b) ->
      assoc b s2 = Some c -> assoc a (f r) = Some (c r).
Proof.
  intros N1 N2 P1 S1 P2 S2. unfold union. cbn [branches bind app compile_branches].
  change (map fst (fold_left _ (map fst s1) _)) with (add_names [] (map fst s1)).
  rewrite (add_names_nil _ N1).
  change (map fst (fold_left _ _ _)) with (add_names (map fst s1) (map fst s2)).
  rewrite (tsort_unique u _ P1 S1), (tsort_unique s _ P2 S2). cbn [flat_map branch_rows].
  rewrite app_nil_r, map_app, (map_map _ _ r2).
  eexists. eexists. split; [reflexivity|]. split; [rewrite !map_length; reflexivity|].
  intros i a b c r Ha Hb Hj Hc. cbn beta. cbn [outer_row].
  assert (Ia : In a (add_names (map fst s1) (map fst s2))).
  { apply add_names_in. left. apply (Permutation_in _ P1). eapply nth_error_In, Ha. }
  assert (NDu : NoDup u) by (eapply Permutation_NoDup; [apply Permutation_sym, P1|exact N1]).
  assert (Ib : In b (map fst s2)) by (eapply assoc_some_in, Hc).
  pose proof (pair_nth _ u s s2 i a b NDu Ha Hb Hj Ib) as P. rewrite Hc in P.
  set (g := fun n => match assoc n (map (fun c0 => (fst c0, snd c0 r)) (pair_columns u s s2)) with Some v => v | None => null end).
  assert (G : g a = c r).
  { unfold g. pose proof (assoc_map _ _ (fun f => f r) a (pair_columns u s s2)) as M. cbv beta in M. rewrite M, P. reflexivity. }
  change (fun n => (n, match assoc n (map (fun c0 => (fst c0, snd c0 r)) (pair_columns u s s2)) with Some v => v | None => null end))
    with (fun n => (n, g n)).
  rewrite <- G. clear - Ia. induction (add_names (map fst s1) (map fst s2)) as [|n l IH]; [destruct Ia|].
  cbn [map assoc]. destruct (text_eqb a n) eqn:E; [apply text_eqb_spec in E; subst; reflexivity|].
  apply IH. destruct Ia as [->|I]; [rewrite text_eqb_refl in E; discriminate|exact I].
Qed.
End Props.

(* ---- the property theorems ---- *)
Theorem union_all_rows : forall Row V (null : V) (q : tree Row V) ns,
  parenthesised q = false -> NoDup ns -> (forall b, In b (selects q) -> named b /\ names (result_of b) = ns) ->
  union Row V null q = Ok (labelled (union_all (map result_of (selects q)))).
Proof. exact union_all_same_columns. Qed.
Print Assumptions union_all_rows.
Theorem union_by_name : forall Row V (null : V) (q : tree Row V) first rest,
  parenthesised q = false -> selects q = first :: rest -> NoDup (names (result_of first)) ->
  (forall b, In b (selects q) -> named b /\ Permutation (names (result_of b)) (names (result_of first))) ->
  union Row V null q = Ok (flat_map (fun b =>
    map (fun row => map (fun n => (n, match value (names (result_of b)) n row with Some v => v | None => null end))
                        (names (result_of first)))
        (rows (result_of b))) (selects q)).
Proof. exact union_same_names. Qed.
Print Assumptions union_by_name.
Theorem union_star_rows : forall Row V (null : V) (q : tree Row V),
  parenthesised q = false -> (forall b, In b (selects q) -> exists rs, b = BStar rs) ->
  union Row V null q = Ok (flat_map (fun b => match b with BStar rs => rs | _ => [] end) (selects q)).
Proof. exact union_star. Qed.
Print Assumptions union_star_rows.
Theorem union_column_names : forall Row V (null : V) (q : tree Row V) schema rs rest,
  parenthesised q = false -> selects q = BCols schema rs :: rest -> NoDup (map fst schema) ->
  exists others rows, union Row V null q = Ok rows /\ NoDup (map fst schema ++ others) /\
    (forall n, In n (map fst schema ++ others) <-> exists b, In b (selects q) /\ In n (names (result_of b))) /\
    forall row, In row rows -> map fst row = map fst schema ++ others.
Proof. exact union_columns. Qed.
Print Assumptions union_column_names.
Theorem union_sorted_pairing : forall Row V (null : V) op mods s1 (r1 : list Row) s2 r2 u s,
  NoDup (map fst s1) -> NoDup (map fst s2) ->
  Permutation u (map fst s1) -> StronglySorted (fun a b => text_le a b = true) u ->
  Permutation s (map fst s2) -> StronglySorted (fun a b => text_le a b = true) s ->
  exists rows1 f, union Row V null (TOp op mods (TSel (BCols s1 r1)) (TSel (BCols s2 r2))) = Ok (rows1 ++ map f r2) /\
    length rows1 = length r1 /\
    forall i a b c r, nth_error u i = Some a -> nth_error s i = Some b ->
      (forall j, (j < i)%nat -> nth_error u j = Some b -> nth_error s j = Some b) ->
      assoc b s2 = Some c -> assoc a (f r) = Some (c r).
Proof. exact union_pairing. Qed.
Print Assumptions union_sorted_pairing.
Theorem set_operators_ignored : forall Row V (null : V) (q q' : tree Row V),
  same_selects q q' -> union Row V null q = union Row V null q'.
Proof. exact operators_same. Qed.
Print Assumptions set_operators_ignored.
Theorem union_parentheses_error : forall Row V (null : V) (q : tree Row V),
  parenthesised q = true -> union Row V null q = Err KeyError.
Proof. exact paren_error. Qed.
Print Assumptions union_parentheses_error.

(* ---- cases ---- *)
Definition sel (cols : list (text * nat)) (rows : list (list N)) : branch (list N) N :=
  BCols (map (fun c => (fst c, fun r => nth (snd c) r 0%N)) cols) rows.
Definition q_ab := sel [(t "a", 0%nat); (t "b", 1%nat)] [[1; 2]; [3; 4]]%N.
Definition q_ab2 := sel [(t "a", 0%nat); (t "b", 1%nat)] [[1; 2]; [5; 6]]%N.
Definition q_ba := sel [(t "b", 0%nat); (t "a", 1%nat)] [[7; 8]]%N.
Definition q_cd := sel [(t "c", 0%nat); (t "d", 1%nat)] [[7; 8]]%N.

(** The hypotheses are met; three branches. *)
Example union_all_case :
  let q := TOp OpUnionAll [] (TSel q_ab) (TOp OpUnionAll [] (TSel q_ab2) (TSel q_ab)) in
  parenthesised q = false /\ (forall b, In b (selects q) -> named b /\ names (result_of b) = [t "a"; t "b"]) /\
  union _ _ 0%N q = Ok (map (fun p => [(t "a", fst p); (t "b", snd p)]) [(1,2);(3,4);(1,2);(5,6);(1,2);(3,4)])%N.
Proof. split; [reflexivity|]. split; [|reflexivity]. intros b [<-|[<-|[<-|[]]]]; split; try exact I; reflexivity. Qed.
Example union_by_name_case :
  let q := TOp OpUnionAll [] (TSel q_ab) (TSel q_ba) in
  (forall b, In b (selects q) -> named b /\ Permutation (names (result_of b)) (names (result_of q_ab))) /\
  union _ _ 0%N q = Ok (map (fun p => [(t "a", fst p); (t "b", snd p)]) [(1,2);(3,4);(8,7)])%N.
Proof.
  split; [|reflexivity]. intros b [<-|[<-|[]]]; split; try exact I; [apply Permutation_refl|apply perm_swap].
Qed.
Example union_pairing_case :
  let s1 := [(t "b", fun r : list N => nth 0 r 0%N); (t "a", fun r => nth 1 r 0%N)] in
  Permutation [t "a"; t "b"] (map fst s1) /\ StronglySorted (fun a b => text_le a b = true) [t "a"; t "b"].
Proof. split; [apply perm_swap|]. repeat constructor. Qed.

(** UNION keeps duplicates. *)
Theorem union_distinct_refuted : exists (q1 q2 : branch (list N) N) result,
  names (result_of q1) = names (result_of q2) /\
  union _ _ 0%N (TOp OpUnion [] (TSel q1) (TSel q2)) = Ok (labelled result) /\
  ~ is_union [result_of q1; result_of q2] result.
Proof.
  exists q_ab, q_ab2, (mktable [t "a"; t "b"] [[1; 2]; [3; 4]; [1; 2]; [5; 6]]%N).
  split; [reflexivity|]. split; [reflexivity|]. intros [H _]. cbn in H. inversion H as [|x l N _]. subst. apply N. right. left. reflexivity.
Qed.
Print Assumptions union_distinct_refuted.
(** EXCEPT and INTERSECT return the rows of both. *)
Theorem except_intersect_refuted : exists (q1 q2 : branch (list N) N) result,
  names (result_of q1) = names (result_of q2) /\
  union _ _ 0%N (TOp OpExcept [] (TSel q1) (TSel q2)) = Ok (labelled result) /\
  union _ _ 0%N (TOp OpIntersect [] (TSel q1) (TSel q2)) = Ok (labelled result) /\
  ~ is_except (result_of q1) (result_of q2) result /\ ~ is_intersect (result_of q1) (result_of q2) result.
Proof.
  exists q_ab, q_ab2, (mktable [t "a"; t "b"] [[1; 2]; [3; 4]; [1; 2]; [5; 6]]%N).
  split; [reflexivity|]. split; [reflexivity|]. split; [reflexivity|]. split; intros H.
  - assert (G : In [1; 2]%N (rows (mktable [t "a"; t "b"] [[1; 2]; [3; 4]; [1; 2]; [5; 6]]%N))) by (left; reflexivity).
    apply H in G. destruct G as [_ G]. apply G. left. reflexivity.
  - assert (G : In [3; 4]%N (rows (mktable [t "a"; t "b"] [[1; 2]; [3; 4]; [1; 2]; [5; 6]]%N))) by (right; left; reflexivity).
    apply H in G. destruct G as [_ G]. cbn in G. destruct G as [G|[G|[]]]; discriminate.
Qed.
Print Assumptions except_intersect_refuted.
(** Columns are not paired by position: SELECT b, a ... UNION ALL SELECT a, b ...; and when the names differ the values go by the order of
    the names and the other names are added. *)
Theorem union_position_refuted :
  (exists q1 q2 : branch (list N) N, union _ _ 0%N (TOp OpUnionAll [] (TSel q1) (TSel q2)) <>
     Ok (labelled (union_all [result_of q1; result_of q2])) /\ Permutation (names (result_of q1)) (names (result_of q2))) /\
  union _ _ 0%N (TOp OpUnionAll [] (TSel q_ba) (TSel q_cd)) =
    Ok [[(t "b", 7); (t "a", 8); (t "c", 0); (t "d", 0)]; [(t "b", 8); (t "a", 7); (t "c", 7); (t "d", 8)]]%N.
Proof.
  split; [|reflexivity]. exists q_ab, q_ba. split; [discriminate|apply perm_swap].
Qed.
Print Assumptions union_position_refuted.
(** A value is lost: SELECT b, c ... UNION ALL SELECT a, b ...: c gets the value of a. *)
Theorem union_overwritten_refuted :
  union _ _ 0%N (TOp OpUnionAll [] (TSel (sel [(t "b", 0%nat); (t "c", 1%nat)] []))
                                   (TSel (sel [(t "a", 0%nat); (t "b", 1%nat)] [[1; 2]]%N))) =
  Ok [[(t "b", 1); (t "c", 1); (t "a", 1)]]%N.
Proof. reflexivity. Qed.
Print Assumptions union_overwritten_refuted.

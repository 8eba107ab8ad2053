(** C227: whole queries, made of SELECT statements by subqueries, UNION ALL and WITH. *)
From Coq Require Import SpecFloat Permutation Sorting.Sorted.
From Verif Require Import Base PyVal Str_Model Str_Proofs Utils_Model Calc_Model Expr_Syntax Expr_Model Expr_Spec Expr_Proofs Expr_Props Where_Spec Having_Model Having_Spec Having_Proofs Reduce_Spec Group_Syntax Group_Model Group_Spec Group_Proofs Group_Props
  Inner_Syntax Inner_Model Inner_Spec Inner_Proofs Inner_Props Select_Model Select_Spec Select_Props Whole_Syntax Cast_Syntax Whole_Model Whole_Spec Whole_Proofs Whole_Props Whole_Cases Collapse_Model Collapse_Spec Collapse_Props Collapse_Cases
  Alias_Model Alias_Spec Alias_Proofs Alias_Props Union_Model With_Props Full_Syntax Full_Spec Full_Model Full_Proofs.

(** The temporary tables have different names, are empty before the statement is executed, and are not named in it. *)
Definition new_tables (temp : nat -> text) (ctes : list (text * query)) (q : query) (tables : text -> list (list (text * val))) : Prop :=
  (forall i j, temp i = temp j -> i = j) /\ (forall j, tables (memory_table (temp j)) = []) /\
  (forall j n q', q' = q \/ In q' (map snd ctes) -> reads n q' -> n <> memory_table (temp j)) /\
  (forall j name, In name (map fst ctes) -> name <> temp j).
(** No input (its table and what follows) of a query named by WITH begins with the name given to it. *)
Definition no_prefix (temp : nat -> text) (pk : text) (ctes : list (text * query)) : Prop :=
  forall name q x, In (name, q) ctes ->
    (forall n, reads n q -> n ++ t "::" ++ pk <> memory_table name ++ x) /\
    (forall j, memory_table (temp j) ++ t "::" ++ pk <> memory_table name ++ x) /\ t "--.--::" ++ pk <> memory_table name ++ x.

(** C227.  A query whose SELECTs are acceptable is accepted, and returns what it says: the rows of the SELECTs over the rows of the subqueries, one SELECT after
    the other in a UNION ALL, with each name of WITH standing for the rows of its query. *)
Theorem query_answers : forall frepr ident ext lib tt str_of primary pick pick1 nested raw state_name other rematch leK temp pk,
  ext (t "neg") = None -> total_preorder leK -> (forall a b, pyeq a b = true -> leK a b = true /\ leK b a = true) ->
  (forall rs, rs <> [] -> In (pick rs) rs) -> (forall rs, rs <> [] -> In (pick1 rs) rs) -> (forall p q, state_name p = state_name q -> p = q) ->
  let fn := sql_fn frepr ident ext lib in
  forall ctes q tables, new_tables temp ctes q tables -> no_prefix temp pk ctes ->
  NoDup (map fst ctes) -> (forall name, In name (map fst ctes) -> tables (memory_table name) = []) ->
  with_proper tt fn str_of leK equal_keys (fun n => exists p, n = state_name p) tables ctes q ->
  exists out, execute frepr ident ext lib str_of primary pick pick1 nested raw state_name other rematch leK temp pk ctes q tables = Ok out /\
              with_means tt fn str_of leK equal_keys tables ctes q out.
Proof.
  intros fr id ext lib tt so pr pick pick1 nested raw nm other rm leK temp pk NN TK EQ HP HP1 INJ fn ctes q tables (TI & TE & TR & TN) NP ND Em P.
  apply (statement_executes fr id ext lib tt NN so pr pick pick1 nested raw nm other rm leK); try assumption.
  - intros name q' I. split; [|split].
    + intros n R j. apply (TR j n q'); [right; apply in_map_iff; exists (name, q'); split; [reflexivity|exact I]|exact R].
    + split; [|split]; [intros n R (x & E); destruct (NP name q' x I) as (H & _ & _); exact (H n R E)|intros j (x & E); destruct (NP name q' x I) as (_ & H & _); exact (H j E)|].
      intros (x & E). destruct (NP name q' x I) as (_ & _ & H). exact (H E).
    + intros j. apply (TN j). apply in_map_iff. exists (name, q'). split; [reflexivity|exact I].
  - intros n R j. apply (TR j n q); [left; reflexivity|exact R].
  - intros j _. apply TE.
Qed.
Print Assumptions query_answers.

(** ** An example *)
Notation fn0 := (sql_fn fr0 id0 with_add no_lib).
Open Scope Z_scope.
Notation x_ := (t "x").
(** SELECT items FROM ... WHERE a > 1 ORDER BY o LIMIT l *)
Definition where1 : option expr := Some (EBin (t "gt") (ECol A) (EConst (VInt 1))).
Definition ab_x : text * expr := (x_, EBin (t "add") (ECol A) (ECol B)).
Definition sel (items : list (text * expr)) (w : option expr) (o : list (text * bool)) (l : option Z) : statement := mkstatement items w [] None o l None.
Lemma col_free : forall (n : text) a, exact (snd (n, ECol a)) /\ ~ uses_aggregate (snd (n, ECol a)) /\ forall v, snd (n, ECol a) <> ENeg (EConst v).
Proof. intros n a. cbn [snd]. split; [constructor|]. split; [|discriminate]. intros (x & g & P & H). apply no_parts_col in P. subst. discriminate H. Qed.
Lemma add_free : forall (n : text) a b, exact (snd (n, EBin (t "add") (ECol a) (ECol b))) /\ ~ uses_aggregate (snd (n, EBin (t "add") (ECol a) (ECol b))) /\
  forall v, snd (n, EBin (t "add") (ECol a) (ECol b)) <> ENeg (EConst v).
Proof.
  intros n a b. cbn [snd]. split; [apply X_bin; constructor|]. split; [|discriminate]. intros (x & g & P & H). apply part_inv in P. destruct P as [->|(i & c & K & P)]; [discriminate H|].
  cbn in K. destruct K as [K|[K|[]]]; injection K as <- <-; apply no_parts_col in P; subst; discriminate H.
Qed.
Lemma sel_clauses : forall items w o l, w = None \/ w = where1 -> (forall n, l = Some n -> 0 < n) -> clauses num_text fn0 (sel items w o l).
Proof.
  intros items w o l W L. unfold clauses, sel. cbn [st_where st_having st_limit]. split; [|split; [|exact L]].
  - intros e E. destruct W as [->| ->]; [discriminate E|]. injection E as <-. apply compare_leaf. reflexivity.
  - intros e [=].
Qed.

(** WITH c AS (SELECT a AS a, a + b AS x FROM t AS y WHERE a > 1 UNION ALL SELECT a AS a, b AS x FROM u)
    SELECT *, a + x AS z FROM (SELECT a AS a, x AS x FROM c WHERE a > 1) s ORDER BY x DESC LIMIT 2 *)
Definition branch1 : query := Select false false (sel [(A, ECol A); ab_x] where1 [] None) (Table (mt (t "t")) (Some (t "y"))).
Definition branch2 : query := Select false false (sel [(A, ECol A); (x_, ECol B)] None [] None) (Table (mt (t "u")) None).
Definition inner1 : query := Select false false (sel [(A, ECol A); (x_, ECol x_)] where1 [] None) (Table (mt (t "c")) None).
Definition outer1 : query := Select false true (sel [(t "z", EBin (t "add") (ECol A) (ECol x_))] None [(x_, true)] (Some 2)) (Sub inner1 (t "s")).
Definition ctes2 : list (text * query) := [(t "c", UnionAll branch1 branch2)].
Definition pair (x y : Z) : list (text * val) := [(A, VInt x); (B, VInt y)].
Definition tables2 (n : text) : list (list (text * val)) :=
  if text_eqb n (mt (t "t")) then [pair 1 5; pair 2 3; pair 4 4] else if text_eqb n (mt (t "u")) then [pair 3 9; pair 0 1] else [].
Definition exec0 (ctes : list (text * query)) (q : query) (tables : text -> list (list (text * val))) : res (list output) :=
  execute fr0 id0 with_add no_lib (fun _ => []) None first last_row (fun _ _ => VNone) (fun _ => VNone) nm0 (fun _ => Err OtherError) (fun _ _ => false) leq0 temps (t "id") ctes q tables.
Example query1_runs : exec0 ctes2 outer1 tables2 = Ok [[(A, VInt 3); (x_, VInt 9); (t "z", VInt 12)]; [(A, VInt 4); (x_, VInt 8); (t "z", VInt 12)]].
Proof. vm_compute. reflexivity. Qed.
Lemma temps_other : forall c r j, c <> 95%N -> mt (c :: r) <> mt (temps j).
Proof. intros c r j H E. unfold memory_table in E. apply app_inv_head in E. destruct (temps_head j) as [x Q]. rewrite Q in E. congruence. Qed.
Example query1_new : new_tables temps ctes2 outer1 tables2.
Proof.
  split; [exact temps_inj|]. split; [|split].
  - intros j. unfold tables2. rewrite !(proj2 (text_eqb_neq _ _)); [reflexivity| |]; intros E; symmetry in E; revert E; apply temps_other; discriminate.
  - intros j n q [->|[<-|[]]] R; cbn in R; [subst; apply temps_other; discriminate|]. destruct R as [->| ->]; apply temps_other; discriminate.
  - intros j name [<-|[]] E. destruct (temps_head j) as [x Q]. rewrite Q in E. discriminate.
Qed.
Example query1_no_prefix : no_prefix temps (t "id") ctes2.
Proof.
  intros name q x [E|[]]. injection E as <- <-. split; [|split].
  - intros n [->| ->] E; discriminate E.
  - intros j E. unfold memory_table in E. rewrite <- !app_assoc in E. apply app_inv_head in E. destruct (temps_head j) as [r Q]. rewrite Q in E. discriminate E.
  - intros E. discriminate E.
Qed.
Lemma two_names : NoDup [A; x_].
Proof. apply NoDup_cons; [intros [E|[]]; discriminate E|]. apply NoDup_cons; [intros []|apply NoDup_nil]. Qed.
Lemma plain_sel : forall items w, NoDup (map fst items) -> w = None \/ w = where1 ->
  Forall (fun ne => exact (snd ne) /\ ~ uses_aggregate (snd ne) /\ forall v, snd ne <> ENeg (EConst v)) items -> plain_statement num_text fn0 (sel items w [] None).
Proof.
  intros items w ND W F. destruct (sel_clauses items w [] None W) as (PW & PH & PL); [discriminate|]. unfold plain_statement. split; [exact ND|]. split; [exact F|]. split; [reflexivity|]. split; [exact PW|].
  split; [exact PH|]. split; [exact PL|]. left. apply Forall_nil.
Qed.
Example query1_proper : with_proper num_text fn0 (fun _ => []) leq0 equal_keys (fun n => exists p, n = nm0 p) tables2 ctes2 outer1.
Proof.
  cbn [with_proper ctes2 proper branch1 branch2]. split.
  - split; [|split; [|reflexivity]]; (split; [reflexivity|]); intros l _.
    + apply Q_plain; [discriminate| |reflexivity|apply sel_clauses; [right; reflexivity|discriminate]|apply Forall_nil]. split; [exact two_names|]. cbn [starred with_items sel st_items app].
      apply Forall_cons; [apply col_free|]. apply Forall_cons; [apply add_free|apply Forall_nil].
    + apply P_plain. apply plain_sel; [exact two_names|left; reflexivity|]. cbn [app st_items sel]. apply Forall_cons; [apply col_free|]. apply Forall_cons; [apply col_free|apply Forall_nil].
  - intros l _. cbn [proper outer1 inner1]. split; [split; [reflexivity|]|].
    + intros m _. apply P_plain. apply plain_sel; [exact two_names|right; reflexivity|]. cbn [app st_items sel]. apply Forall_cons; [apply col_free|]. apply Forall_cons; [apply col_free|apply Forall_nil].
    + intros m _. apply Q_plain; [discriminate| |reflexivity| |].
      * cbn [starred with_items sel st_items app source_names query_names map fst]. split.
        -- cbn [map fst]. apply NoDup_cons; [intros [E|[E|[]]]; discriminate E|]. apply NoDup_cons; [intros [E|[]]; discriminate E|]. apply NoDup_cons; [intros []|apply NoDup_nil].
        -- apply Forall_cons; [apply col_free|]. apply Forall_cons; [apply col_free|]. apply Forall_cons; [apply add_free|apply Forall_nil].
      * apply sel_clauses; [left; reflexivity|]. intros n E. injection E as <-. lia.
      * apply Forall_cons; [|apply Forall_nil]. cbn. right. left. reflexivity.
Qed.

(** C228.  With an alias, a statement that is ordered by a column which is not an item of the select list, and not used elsewhere, is refused; without one it is
    answered: SELECT a AS a FROM t AS y ORDER BY b. *)
Definition by_b : statement := sel [(A, ECol A)] None [(B, false)] None.
Definition aliased0 (alias : option text) (st : statement) (table : list row) : res (list output) :=
  run_aliased fr0 id0 with_add no_lib (fun _ => []) None first last_row (fun _ _ => VNone) (fun _ => VNone) nm0 (fun _ => Err OtherError) (fun _ _ => false) leq0 alias false st table.
Theorem order_by_alias_refuted : 
  aliased0 None by_b (tab [(1, 7); (2, 5); (3, 6)]) = Ok [[(A, VInt 2)]; [(A, VInt 3)]; [(A, VInt 1)]] /\
  forall a table, a <> [] -> exists e, aliased0 (Some a) by_b table = Err e.
Proof. split; [vm_compute; reflexivity|]. intros a table NE. destruct a as [|c a]; [destruct (NE eq_refl)|]. eexists. vm_compute. reflexivity. Qed.

(** C61: WITH. *)
From Verif Require Import Base Str_Model Str_Proofs With_Spec With_Model With_Proofs.
Open Scope nat_scope.

Section Props.
Variable Row : Type.
Variable temp : nat -> text.
Variable pk : text.
Notation execute := (execute Row temp pk).
Notation with_rows := (with_rows Row).
Notation with_tables := (with_tables Row).

(** The names of the temporary tables are new: different from each other, from all tables read and from the names of WITH, and their tables are empty. *)
Definition new_names (ctes : list (text * query Row)) (q : query Row) (tables : text -> list Row) : Prop :=
  (forall i j, temp i = temp j -> i = j) /\
  (forall j, tables (memory_table (temp j)) = []) /\
  (forall j n q', q' = q \/ In q' (map snd ctes) -> reads Row n q' -> n <> memory_table (temp j)) /\
  (forall j name, In name (map fst ctes) -> name <> temp j).
(** In no query of WITH a subquery starts from a table whose name begins with the name being defined. *)
Definition no_clash (ctes : list (text * query Row)) : Prop :=
  forall name q, In (name, q) ctes -> clash_free Row temp pk name q.

Lemma hyps : forall ctes q tables, new_names ctes q tables -> no_clash ctes ->
  (forall i j, temp i = temp j -> i = j) /\
  (forall name q', In (name, q') ctes -> no_temp Row temp q' /\ clash_free Row temp pk name q' /\ forall j, memory_table name <> memory_table (temp j)) /\
  no_temp Row temp q /\ fresh Row temp 0 tables.
Proof.
  intros ctes q tables (I & F & R & N) C. split; [exact I|]. split; [|split].
  - intros name q' H. split; [|split].
    + intros n Rn j. apply (R j n q'); [right; apply (in_map snd) in H; exact H|exact Rn].
    + apply C. exact H.
    + intros j E. apply mt_inj in E. apply (N j name); [apply (in_map fst) in H; exact H|exact E].
  - intros n Rn j. apply (R j n q); [left; reflexivity|exact Rn].
  - intros j _. apply F.
Qed.

(** For every WITH statement with new names for its temporary tables and without such a clash, whatever the queries compute and however
    deeply they nest: if the names of WITH are distinct and no rows are stored under them, the result is that of SQL. *)
Theorem with_correct : forall ctes q tables, new_names ctes q tables -> no_clash ctes ->
  NoDup (map fst ctes) -> (forall name, In name (map fst ctes) -> tables (memory_table name) = []) ->
  snd (execute ctes q tables) = with_rows tables ctes q.
Proof.
  intros ctes q tables HN HC ND E. destruct (hyps ctes q tables HN HC) as (I & H & NT & F).
  destruct (statement_ok Row temp pk I ctes q H NT tables F) as [-> _]. unfold With_Spec.with_rows. apply rows_ext. intros n _.
  clear -ND E. revert tables E. induction ctes as [|[name q'] ctes IH]; intros tables E; [reflexivity|]. cbn [code_tables With_Spec.with_tables].
  inversion ND as [|? ? N1 N2]; subst. rewrite <- IH.
  - apply code_tables_ext.
    + intros m q1 _ _. destruct (text_eqb m (memory_table name)) eqn:Em; [|reflexivity]. apply text_eqb_spec in Em. subst m.
      rewrite E by (left; reflexivity). reflexivity.
    + destruct (text_eqb n (memory_table name)) eqn:Em; [|reflexivity]. apply text_eqb_spec in Em. subst n.
      rewrite E by (left; reflexivity). reflexivity.
  - exact N2.
  - intros nm Inm. cbn [map fst] in *. destruct (text_eqb (memory_table nm) (memory_table name)) eqn:Em.
    + apply text_eqb_spec, mt_inj in Em. subst. contradiction.
    + apply E. right. exact Inm.
Qed.

(** What the code does with any tables: each query of WITH appends its rows to the table of its name, and these tables are still there
    afterwards; all tables that are neither temporary nor named by WITH are unchanged. *)
Theorem with_exact : forall ctes q tables, new_names ctes q tables -> no_clash ctes ->
  snd (execute ctes q tables) = rows Row (code_tables Row tables ctes) q /\
  (forall n, (forall j, n <> memory_table (temp j)) -> fst (execute ctes q tables) n = code_tables Row tables ctes n) /\
  (forall n, (forall j, n <> memory_table (temp j)) -> (forall name, In name (map fst ctes) -> n <> memory_table name) ->
     fst (execute ctes q tables) n = tables n).
Proof.
  intros ctes q tables HN HC. destruct (hyps ctes q tables HN HC) as (I & H & NT & F).
  destruct (statement_ok Row temp pk I ctes q H NT tables F) as [A B]. split; [exact A|]. split; [exact B|].
  intros n Hn Hc. rewrite B by exact Hn. clear -Hc. revert tables. induction ctes as [|[name q'] ctes IH]; intros tables; [reflexivity|].
  cbn [code_tables]. rewrite IH by (intros nm Inm; apply Hc; right; exact Inm).
  assert (text_eqb n (memory_table name) = false) as ->; [|reflexivity]. apply text_eqb_neq. apply Hc. left. reflexivity.
Qed.

(** A single WITH table, by itself: it holds the rows it held before and then those of its query. *)
Theorem with_table_keeps_old_rows : forall name q' q tables, new_names [(name, q')] q tables -> no_clash [(name, q')] ->
  fst (execute [(name, q')] q tables) (memory_table name) = tables (memory_table name) ++ rows Row tables q'.
Proof.
  intros name q' q tables HN HC. destruct (with_exact [(name, q')] q tables HN HC) as (_ & B & _).
  destruct (hyps _ q tables HN HC) as (_ & H & _). destruct (H name q' (or_introl eq_refl)) as (_ & _ & N).
  rewrite B by exact N. cbn [code_tables]. rewrite text_eqb_refl. reflexivity.
Qed.
End Props.
Print Assumptions with_correct.
Print Assumptions with_exact.
Print Assumptions with_table_keeps_old_rows.

(** ** Examples and refutations *)
Definition temps (k : nat) : text := t "__subquery_" ++ repeat 49%N k ++ t "_x".
Definition all (l : list (list nat)) : list nat := concat l.
Definition one : query nat := Query (fun _ => [1]) [].
Definition from (n : text) : query nat := Query all [inl n].
Definition of (q : query nat) : query nat := Query all [inr q].
Definition mem (n : text) := memory_table n.
Lemma temps_inj : forall i j, temps i = temps j -> i = j.
Proof.
  intros i j H. unfold temps in H. apply app_inv_head in H. apply app_inv_tail in H. apply (f_equal (@length N)) in H. rewrite !repeat_length in H. exact H.
Qed.
Lemma temps_head : forall j, exists r, temps j = 95%N :: r.
Proof. intros j. unfold temps. eexists. cbn. reflexivity. Qed.

(** WITH a AS (SELECT 1), b AS (SELECT x from (SELECT from a)) SELECT from b *)
Definition ctes1 : list (text * query nat) := [(t "a", one); (t "b", of (from (mem (t "a"))))].
Lemma reads_table : forall n m, reads nat n (from m) -> n = m.
Proof. intros n m H. inversion H as [? ? I|? ? ? I]; subst; destruct I as [E|[]]; [injection E as <-; reflexivity|discriminate]. Qed.
Lemma reads_of : forall n q, reads nat n (of q) -> reads nat n q.
Proof. intros n q H. inversion H as [? ? I|? ? q' I R]; subst; destruct I as [E|[]]; [discriminate|]. injection E as <-. exact R. Qed.
Lemma mem_temps : forall c r j, c <> 95%N -> mem (c :: r) <> memory_table (temps j).
Proof. intros c r j H E. apply mt_inj in E. destruct (temps_head j) as [x Q]. rewrite Q in E. congruence. Qed.
Example ctes1_new : new_names nat temps ctes1 (from (mem (t "b"))) (fun _ => []).
Proof.
  split; [exact temps_inj|]. split; [reflexivity|]. split.
  - intros j n q [->|I] R.
    + apply reads_table in R. subst. apply mem_temps. discriminate.
    + cbn in I. destruct I as [<-|[<-|[]]].
      * inversion R as [? ? I|? ? ? I]; destruct I.
      * apply reads_of, reads_table in R. subst. apply mem_temps. discriminate.
  - intros j name [<-|[<-|[]]] E; destruct (temps_head j) as [x Q]; rewrite Q in E; discriminate.
Qed.
Example ctes1_no_clash : no_clash nat temps (t "id") ctes1.
Proof.
  intros name q [E|[E|[]]]; injection E as <- <-.
  - intros f s r [].
  - intros f s r [E|[]]. injection E as <- <- <-. intros [x H]. cbn in H. discriminate.
Qed.
Example ctes1_runs : snd (execute nat temps (t "id") ctes1 (from (mem (t "b"))) (fun _ => [])) = [1].
Proof. reflexivity. Qed.

(** The second execution of the same statement (with other temporary tables) sees the rows of the first one too. *)
Theorem with_twice_refuted : exists ctes q tables, new_names nat temps ctes q tables /\ no_clash nat temps (t "id") ctes /\
  let first := execute nat temps (t "id") ctes q tables in
  snd first = with_rows nat tables ctes q /\
  snd (execute nat temps (t "id") ctes q (fst first)) <> with_rows nat (fst first) ctes q.
Proof.
  exists [(t "a", one)], (from (mem (t "a"))), (fun _ => []). split; [|split].
  - split; [exact temps_inj|]. split; [reflexivity|]. split.
    + intros j n q [->|I] R.
      * apply reads_table in R. subst. apply mem_temps. discriminate.
      * cbn in I. destruct I as [<-|[]]. inversion R as [? ? I|? ? ? I]; destruct I.
    + intros j name [<-|[]] E; destruct (temps_head j) as [x Q]; rewrite Q in E; discriminate.
  - intros name q [E|[]]; injection E as <- <-. intros f s r [].
  - split; [reflexivity|]. vm_compute. discriminate.
Qed.
(** A table named like the one being defined, only longer, is not read: WITH a AS (SELECT from (SELECT from ab) x) SELECT from a. *)
Theorem with_name_prefix_refuted : exists ctes q tables, new_names nat temps ctes q tables /\ NoDup (map fst ctes) /\
  (forall name, In name (map fst ctes) -> tables (memory_table name) = []) /\
  snd (execute nat temps (t "id") ctes q tables) = [] /\ with_rows nat tables ctes q = [7].
Proof.
  exists [(t "a", of (from (mem (t "ab"))))], (from (mem (t "a"))), (fun n => if text_eqb n (mem (t "ab")) then [7] else []).
  split; [|split; [|split; [|split; reflexivity]]].
  - split; [exact temps_inj|]. split.
    + intros j. assert (text_eqb (memory_table (temps j)) (mem (t "ab")) = false) as ->; [|reflexivity].
      apply text_eqb_neq. intros E. symmetry in E. revert E. apply mem_temps. discriminate.
    + split.
      * intros j n q [->|I] R.
        -- apply reads_table in R. subst. apply mem_temps. discriminate.
        -- cbn in I. destruct I as [<-|[]]. apply reads_of, reads_table in R. subst. apply mem_temps. discriminate.
      * intros j name [<-|[]] E; destruct (temps_head j) as [x Q]; rewrite Q in E; discriminate.
  - apply NoDup_cons; [intros []|apply NoDup_nil].
  - intros name [<-|[]]. reflexivity.
Qed.

From Verif Require Import Base Str_Model Str_Proofs With_Spec With_Model.
Open Scope nat_scope.

Section P.
Variable Row : Type.
Variable temp : nat -> text.
Variable pk : text.
Notation query := (query Row).
Notation compile := (compile Row temp).
Notation mt := memory_table.

(** Induction on queries and their subqueries. *)
Fixpoint query_induction (P : query -> Prop)
  (H : forall f sources, (forall q, In (inr q) sources -> P q) -> P (Query f sources)) (q : query) : P q.
Proof.
  destruct q as [f sources]. apply H. induction sources as [|s sources IH]; intros q I; [destruct I|].
  destruct I as [E|I]; [|exact (IH q I)]. destruct s as [n|q']; [discriminate E|]. injection E as <-. exact (query_induction P H q').
Defined.

Lemma rows_ext : forall q tables tables', (forall n, reads Row n q -> tables n = tables' n) -> rows Row tables q = rows Row tables' q.
Proof.
  induction q as [f sources IH] using query_induction. intros tables tables' H. cbn [rows]. f_equal. apply map_ext_in. intros [n|q] I.
  - apply H. apply R_table. exact I.
  - apply (IH q I). intros n R. apply H. eapply R_query; eassumption.
Qed.

Definition go := fix go (l : list (text + query)) (k : nat) : list text * list (config Row) * nat :=
  match l with
  | [] => ([], [], k)
  | inl n :: r => let '(i, d, k1) := go r k in (n :: i, d, k1)
  | inr q :: r =>
    let '(c, k1) := compile q (S k) in
    let '(i, d, k2) := go r k1 in
    (mt (temp k) :: i, set_output Row (mt (temp k)) c :: d, k2)
  end.
Lemma compile_eq : forall f sources k, compile (Query f sources) k = let '(i, d, k') := go sources k in (Config Row f i None d, k').
Proof. reflexivity. Qed.

Hypothesis temp_inj : forall i j, temp i = temp j -> i = j.
Lemma mt_inj : forall a b, mt a = mt b -> a = b.
Proof. intros a b H. unfold memory_table in H. apply app_inv_head in H. exact H. Qed.

(** The tables from [k] on are not used yet. *)
Definition fresh (k : nat) (tables : text -> list Row) : Prop := forall j, k <= j -> tables (mt (temp j)) = [].
Definition no_temp (q : query) : Prop := forall n, reads Row n q -> forall j, n <> mt (temp j).
Definition src (tables : text -> list Row) (s : text + query) : list Row := match s with inl n => tables n | inr q => rows Row tables q end.
Definition runs (deps : list (config Row)) (s : store Row) : store Row := fold_left (fun s d => run Row d s) deps s.

Definition deps_ok (k k' : nat) (d : list (config Row)) (P : store Row -> store Row -> Prop) : Prop :=
  k <= k' /\ forall s, fresh k (fst s) ->
    snd (runs d s) = snd s /\ (forall n, (forall j, k <= j < k' -> n <> mt (temp j)) -> fst (runs d s) n = fst s n) /\ P s (runs d s).

Lemma compile_ok : forall q, no_temp q -> forall k f i o d k', compile q k = (Config Row f i o d, k') ->
  o = None /\ deps_ok k k' d (fun s s' => f (map (fst s') i) = rows Row (fst s) q).
Proof.
  induction q as [f0 sources IH] using query_induction. intros NT k f i o d k' C. rewrite compile_eq in C.
  destruct (go sources k) as [[i' d'] k2] eqn:G. injection C as <- <- <- <- <-. split; [reflexivity|].
  enough (Q : deps_ok k k2 d' (fun s s' => map (fst s') i' = map (src (fst s)) sources)).
  { destruct Q as [L Q]. split; [exact L|]. intros s F. destruct (Q s F) as (A & B & E). split; [exact A|split; [exact B|]]. cbn [rows]. rewrite E. reflexivity. }
  assert (NTs : forall n, In (inl n) sources -> forall j, n <> mt (temp j)) by (intros n I j; apply NT; apply R_table; exact I).
  assert (IH' : forall q, In (inr q) sources -> forall k f i o d k', compile q k = (Config Row f i o d, k') ->
     o = None /\ deps_ok k k' d (fun s s' => f (map (fst s') i) = rows Row (fst s) q)).
  { intros q I. apply (IH q I). intros n R. apply NT. eapply R_query; eassumption. }
  assert (RN : forall q, In (inr q) sources -> no_temp q) by (intros q I n R; apply NT; eapply R_query; eassumption).
  clear NT IH. revert k i' d' k2 G. induction sources as [|s sources IHs]; intros k i' d' k2 G.
  - injection G as <- <- <-. split; [lia|]. intros s F. repeat split; reflexivity.
  - assert (IHs' := IHs (fun n I => NTs n (or_intror I)) (fun q I => IH' q (or_intror I)) (fun q I => RN q (or_intror I))). clear IHs.
    destruct s as [n|q]; cbn [go] in G.
    + destruct (go sources k) as [[i1 d1] k1] eqn:G1. injection G as <- <- <-. destruct (IHs' k i1 d1 k1 G1) as [L Q]. split; [exact L|].
      intros s F. destruct (Q s F) as (A & B & E). split; [exact A|split; [exact B|]]. cbn [map src]. rewrite E. f_equal.
      apply B. intros j _. apply NTs. left. reflexivity.
    + destruct (compile q (S k)) as [c k1] eqn:C. destruct (go sources k1) as [[i1 d1] k3] eqn:G1. injection G as <- <- <-.
      destruct c as [f i o d]. destruct (IH' q (or_introl eq_refl) (S k) f i o d k1 C) as (-> & L1 & Q1). destruct (IHs' k1 i1 d1 k3 G1) as [L2 Q2].
      split; [lia|]. intros s F. unfold runs. cbn [fold_left set_output run].
      change (fold_left (fun s d => run Row d s) d s) with (runs d s).
      destruct (Q1 s) as (A1 & B1 & E1); [intros j Hj; apply F; lia|].
      set (s1 := append Row (Some (mt (temp k))) (f (map (fst (runs d s)) i)) (runs d s)).
      change (fold_left (fun s d => run Row d s) d1 s1) with (runs d1 s1).
      assert (T1 : fst s1 (mt (temp k)) = rows Row (fst s) q).
      { unfold s1, append. cbn [fst]. rewrite text_eqb_refl. rewrite B1, F by (try lia; intros j Hj Z; apply mt_inj, temp_inj in Z; lia). exact E1. }
      assert (O1 : forall n, (forall j, k <= j < k1 -> n <> mt (temp j)) -> fst s1 n = fst s n).
      { intros n H. unfold s1, append. cbn [fst]. assert (text_eqb n (mt (temp k)) = false) as -> by (apply text_eqb_neq; apply H; lia).
        apply B1. intros j Hj. apply H. lia. }
      destruct (Q2 s1) as (A2 & B2 & E2).
      { intros j Hj. rewrite O1; [apply F; lia|]. intros j' Hj' Z. apply mt_inj, temp_inj in Z. lia. }
      split; [rewrite A2; unfold s1, append; cbn [snd]; exact A1|]. split.
      * intros n H. rewrite B2 by (intros j Hj; apply H; lia). apply O1. intros j Hj. apply H. lia.
      * cbn [map src]. rewrite B2 by (intros j Hj Z; apply mt_inj, temp_inj in Z; lia). rewrite T1. f_equal. rewrite E2.
        apply map_ext_in. intros [n|q'] I; cbn [src].
        -- apply O1. intros j _. apply NTs. right. exact I.
        -- apply rows_ext. intros n R. apply O1. intros j _. exact (RN q' (or_intror I) n R j).
Qed.

(** ** WITH *)
(** No subquery standing directly in the query starts from a table whose text begins with the name. *)
Definition clash_free (name : text) (q : query) : Prop :=
  match q with
  | Query _ sources => forall f s r, In (inr (Query f (s :: r))) sources ->
      match s with
      | inl m => ~ exists x, m ++ t "::" ++ pk = mt name ++ x
      | inr _ => forall k, ~ exists x, mt (temp k) ++ t "::" ++ pk = mt name ++ x
      end
  end.
Lemma no_prefix : forall name m, (~ exists x, m ++ t "::" ++ pk = mt name ++ x) -> prefixb (t "&." ++ mt name) (input_text pk m) = false.
Proof.
  intros name m H. destruct (prefixb _ _) eqn:P; [|reflexivity]. exfalso. apply H. apply prefixb_spec in P. destruct P as [x E].
  exists x. unfold input_text in E. rewrite <- app_assoc in E. apply app_inv_head in E. exact E.
Qed.
Lemma fix_none : forall name q k f i o d k', clash_free name q -> compile q k = (Config Row f i o d, k') -> map (fix_dependency Row pk (mt name)) d = d.
Proof.
  intros name [f0 sources] k f i o d k' CF C. rewrite compile_eq in C. destruct (go sources k) as [[i1 d1] k1] eqn:G. injection C as <- <- <- <- <-.
  cbn [clash_free] in CF. clear f0. revert k i1 d1 k1 G CF. induction sources as [|s sources IH]; intros k i1 d1 k1 G CF.
  - injection G as <- <- <-. reflexivity.
  - assert (CF' : forall f s0 r, In (inr (Query f (s0 :: r))) sources -> match s0 with
      | inl m => ~ exists x, m ++ t "::" ++ pk = mt name ++ x
      | inr _ => forall k, ~ exists x, mt (temp k) ++ t "::" ++ pk = mt name ++ x end) by (intros g s0 r I; apply (CF g s0 r); right; exact I).
    destruct s as [n|q]; cbn [go] in G.
    + destruct (go sources k) as [[i2 d2] k2] eqn:G1. injection G as <- <- <-. eapply IH; eassumption.
    + destruct (compile q (S k)) as [c k2] eqn:C. destruct (go sources k2) as [[i2 d2] k3] eqn:G1. injection G as <- <- <-. cbn [map].
      f_equal; [|eapply IH; eassumption].
      destruct q as [g ss]. rewrite compile_eq in C. destruct (go ss (S k)) as [[i3 d3] k4] eqn:G2. injection C as <- <-. cbn [set_output fix_dependency].
      destruct ss as [|s0 r]; [injection G2 as <- <- <-; reflexivity|]. pose proof (CF g s0 r (or_introl eq_refl)) as K.
      destruct s0 as [m|q0]; cbn [go] in G2.
      * destruct (go r (S k)) as [[i4 d4] k5]. injection G2 as <- <- <-. rewrite no_prefix by exact K. reflexivity.
      * destruct (compile q0 (S (S k))) as [c0 k6]. destruct (go r k6) as [[i4 d4] k5]. injection G2 as <- <- <-. rewrite no_prefix by apply K. reflexivity.
Qed.

(** The tables after WITH as the code makes them: appended to what was there. *)
Fixpoint code_tables (tables : text -> list Row) (ctes : list (text * query)) : text -> list Row :=
  match ctes with
  | [] => tables
  | (name, q) :: r => code_tables (fun n => if text_eqb n (mt name) then tables n ++ rows Row tables q else tables n) r
  end.
Lemma code_tables_ext : forall ctes tables tables' n, (forall m q, In q (map snd ctes) -> reads Row m q -> tables m = tables' m) ->
  tables n = tables' n -> code_tables tables ctes n = code_tables tables' ctes n.
Proof.
  induction ctes as [|[name q] ctes IH]; intros tables tables' n H E; cbn [code_tables]; [exact E|].
  assert (R : rows Row tables q = rows Row tables' q) by (apply rows_ext; intros m; apply H; left; reflexivity).
  apply IH.
  - intros m q' I Rm. rewrite R. rewrite (H m q') by (try right; assumption). reflexivity.
  - rewrite R, E. reflexivity.
Qed.
Lemma with_ok : forall ctes, (forall name q, In (name, q) ctes -> no_temp q /\ clash_free name q /\ forall j, mt name <> mt (temp j)) ->
  forall k cs k', compile_with Row temp pk ctes k = (cs, k') ->
  k <= k' /\ forall s, fresh k (fst s) -> snd (runs cs s) = snd s /\ fresh k' (fst (runs cs s)) /\
    forall n, (forall j, n <> mt (temp j)) -> fst (runs cs s) n = code_tables (fst s) ctes n.
Proof.
  induction ctes as [|[name q] ctes IH]; intros H k cs k' C; cbn [compile_with] in C.
  - injection C as <- <-. split; [lia|]. intros s F. split; [reflexivity|split; [exact F|reflexivity]].
  - destruct (compile q k) as [[f i o d] k1] eqn:Cq. destruct (compile_with Row temp pk ctes k1) as [cs' k2] eqn:Cw. injection C as <- <-.
    destruct (H name q (or_introl eq_refl)) as (NT & CF & NN).
    destruct (compile_ok q NT k f i o d k1 Cq) as (_ & L1 & Q1). destruct (IH (fun a b I => H a b (or_intror I)) k1 cs' k2 Cw) as [L2 Q2].
    rewrite (fix_none name q k f i o d k1 CF Cq).
    split; [lia|]. intros s F. unfold runs. cbn [fold_left run].
    change (fold_left (fun s d => run Row d s) d s) with (runs d s).
    destruct (Q1 s F) as (A1 & B1 & E1).
    set (s1 := append Row (Some (mt name)) (f (map (fst (runs d s)) i)) (runs d s)).
    change (fold_left (fun s d => run Row d s) cs' s1) with (runs cs' s1).
    assert (O1 : forall n, (forall j, k <= j < k1 -> n <> mt (temp j)) -> fst s1 n = if text_eqb n (mt name) then fst s n ++ rows Row (fst s) q else fst s n).
    { intros n Hn. unfold s1, append. cbn [fst]. rewrite B1, E1 by exact Hn. reflexivity. }
    destruct (Q2 s1) as (A2 & B2 & E2).
    { intros j Hj. rewrite O1 by (intros j' Hj' Z; apply mt_inj, temp_inj in Z; lia).
      assert (text_eqb (mt (temp j)) (mt name) = false) as -> by (apply text_eqb_neq; intros Z; apply (NN j); symmetry; exact Z). apply F. lia. }
    split; [rewrite A2; unfold s1, append; cbn [snd]; exact A1|].
    split; [exact B2|].
    intros n Hn. rewrite E2 by exact Hn. cbn [code_tables]. apply code_tables_ext.
    + intros m q' I R. apply O1. intros j _. apply in_map_iff in I as ([nm q''] & <- & I). destruct (H nm q'' (or_intror I)) as (NT' & _). apply NT'. exact R.
    + apply O1. intros j _. apply Hn.
Qed.

Lemma statement_ok : forall ctes q, (forall name q, In (name, q) ctes -> no_temp q /\ clash_free name q /\ forall j, mt name <> mt (temp j)) -> no_temp q ->
  forall tables, fresh 0 tables ->
  snd (execute Row temp pk ctes q tables) = rows Row (code_tables tables ctes) q /\
  forall n, (forall j, n <> mt (temp j)) -> fst (execute Row temp pk ctes q tables) n = code_tables tables ctes n.
Proof.
  intros ctes q H NT tables F. unfold execute, compile_statement.
  destruct (compile_with Row temp pk ctes 0) as [cs k] eqn:Cw. destruct (compile q k) as [[f i o d] k'] eqn:Cq.
  destruct (with_ok ctes H 0 cs k Cw) as [_ Q1]. destruct (compile_ok q NT k f i o d k' Cq) as (-> & _ & Q2).
  cbn [run]. rewrite fold_left_app. change (fold_left (fun s d => run Row d s) cs (tables, [])) with (runs cs (tables, [])).
  destruct (Q1 (tables, []) F) as (A1 & F1 & E1). set (s1 := runs cs (tables, [])) in *.
  change (fold_left (fun s d => run Row d s) d s1) with (runs d s1). destruct (Q2 s1 F1) as (A2 & B2 & E2).
  cbn [append fst snd]. split.
  - rewrite A2, A1, E2. cbn [snd app]. apply rows_ext. intros n R. apply E1. apply NT. exact R.
  - intros n Hn. rewrite B2 by (intros j _; apply Hn). apply E1. exact Hn.
Qed.
End P.

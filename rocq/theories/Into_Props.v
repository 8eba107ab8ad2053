(** C39: SELECT ... INTO variables. *)
From Verif Require Import Base Agg_Model Json_Proofs Into_Model Into_Spec.
Local Open Scope nat_scope.

Section Props.
Variable V : Type.
Variable null : V.
Variable is_null : V -> bool.
Hypothesis is_null_spec : forall v, is_null v = true <-> v = null.
Notation select_into := (select_into V null is_null).
Notation cell := (cell V null).
Notation column := (column V null).
Notation vars := (vars V).

(** The variables not named keep their values. *)
Definition others_kept (names : list text) (env env' : vars) : Prop := forall n, ~ In n names -> assoc n env' = assoc n env.

Lemma field_cell : forall r k, cell r k (field V null r k).
Proof.
  unfold field. induction r as [|[k' v'] r IH]; intro k; cbn [assoc]; [constructor|].
  destruct (text_eqb k k') eqn:E; [apply text_eqb_spec in E; subst; constructor|].
  apply text_eqb_neq in E. constructor; [exact E|apply IH].
Qed.
Lemma cell_field : forall r k v, cell r k v -> v = field V null r k.
Proof.
  unfold field. induction 1 as [k v r|k k' v v' r N C IH|k]; cbn [assoc].
  - rewrite text_eqb_refl. reflexivity.
  - assert (text_eqb k k' = false) as -> by (apply text_eqb_neq; exact N). exact IH.
  - reflexivity.
Qed.
Lemma assoc_project : forall keys r k, In k keys -> assoc k (project V null keys r) = Some (field V null r k).
Proof.
  induction keys as [|k' keys IH]; intros r k I; [destruct I|]. unfold project in *. cbn [map assoc].
  destruct (text_eqb k k') eqn:E; [apply text_eqb_spec in E; subst; reflexivity|]. apply text_eqb_neq in E. destruct I as [I|I]; [congruence|apply IH, I].
Qed.
Lemma init_known : forall names env n, In n names -> assoc n (init_vars V null names env) <> None.
Proof.
  assert (G : forall names env n, assoc n env <> None -> assoc n (init_vars V null names env) <> None).
  { induction names as [|m names IH]; intros env n H; [exact H|]. cbn [init_vars]. apply IH. destruct (assoc m env) eqn:E; [exact H|].
    rewrite assoc_dict_set. destruct (text_eqb n m); [discriminate|exact H]. }
  induction names as [|m names IH]; intros env n I; [destruct I|]. cbn [init_vars]. destruct I as [->|I]; [|apply IH, I].
  apply G. destruct (assoc n env) eqn:E; [congruence|]. rewrite assoc_dict_set, text_eqb_refl. discriminate.
Qed.
Lemma init_others : forall names env n, ~ In n names -> assoc n (init_vars V null names env) = assoc n env.
Proof.
  induction names as [|m names IH]; intros env n H; [reflexivity|]. cbn [init_vars]. rewrite IH by (intro X; apply H; right; exact X).
  destruct (assoc m env) eqn:E; [reflexivity|]. rewrite assoc_dict_set.
  assert (text_eqb n m = false) as -> by (apply text_eqb_neq; intros ->; apply H; left; reflexivity). reflexivity.
Qed.
Lemma set_null_assoc : forall n env m, assoc m (set_null_if_known V null n env) =
  if text_eqb m n then match assoc n env with Some _ => Some (Cell null) | None => None end else assoc m env.
Proof.
  intros n env m. unfold set_null_if_known. destruct (assoc n env) eqn:E.
  - rewrite assoc_dict_set. reflexivity.
  - destruct (text_eqb m n) eqn:X; [apply text_eqb_spec in X; subst; exact E|reflexivity].
Qed.

(** A result of one row and one column: the variable holds the cell. *)
Theorem into_scalar : forall k n r v env, cell r k v ->
  exists env', select_into (Some [k]) [n] [r] env = Ok env' /\ assoc n env' = Some (Cell v) /\ others_kept [n] env env'.
Proof.
  intros k n r v env C. apply cell_field in C. unfold Into_Model.select_into, store. cbn [length selected].
  pose proof (init_known [n] env n (or_introl eq_refl)) as K. rewrite <- C. destruct (is_null v) eqn:E.
  - apply is_null_spec in E. subst v. eexists. split; [reflexivity|]. split.
    + rewrite set_null_assoc, text_eqb_refl. destruct (assoc n (init_vars V null [n] env)); [congruence|contradiction].
    + intros m H. rewrite set_null_assoc. assert (text_eqb m n = false) as -> by (apply text_eqb_neq; intros ->; apply H; left; reflexivity). apply init_others, H.
  - eexists. split; [reflexivity|]. split; [rewrite assoc_dict_set, text_eqb_refl; reflexivity|].
    intros m H. rewrite assoc_dict_set. assert (text_eqb m n = false) as -> by (apply text_eqb_neq; intros ->; apply H; left; reflexivity). apply init_others, H.
Qed.

(** What the i-th variable gets. *)
Definition ith_value (keys : list text) (r : list (text * V)) (i : nat) (x : value V) : Prop :=
  match nth_error keys i with Some k => exists v, cell r k v /\ x = Cell v | None => x = Cell null end.
Definition ith_column (keys : list text) (rows : list (list (text * V))) (i : nat) (x : value V) : Prop :=
  match nth_error keys i with Some k => exists vs, column rows k vs /\ x = Cells vs | None => x = Cell null end.

Lemma assign_other : forall v names keys env env' n, assign V null keys v names env = Ok env' -> ~ In n names -> assoc n env' = assoc n env.
Proof.
  intros v. induction names as [|m names IH]; intros keys env env' n E H; cbn [assign] in E; [injection E as <-; reflexivity|].
  assert (Nm : text_eqb n m = false) by (apply text_eqb_neq; intros ->; apply H; left; reflexivity).
  assert (Hn : ~ In n names) by (intro X; apply H; right; exact X).
  destruct keys as [|k keys].
  - rewrite (IH _ _ _ _ E Hn), set_null_assoc, Nm. reflexivity.
  - destruct v as [x|[|x xs]|r|l]; try discriminate E.
    + rewrite (IH _ _ _ _ E Hn), assoc_dict_set, Nm. reflexivity.
    + destruct (assoc k r); [|discriminate E]. rewrite (IH _ _ _ _ E Hn), assoc_dict_set, Nm. reflexivity.
    + destruct (all_fields V l k); [|discriminate E]. rewrite (IH _ _ _ _ E Hn), assoc_dict_set, Nm. reflexivity.
Qed.

Lemma assign_row : forall r names keys0 keys env, (forall k, In k keys -> In k keys0) -> NoDup names -> (forall n, In n names -> assoc n env <> None) ->
  exists env', assign V null keys (Row (project V null keys0 r)) names env = Ok env' /\
    forall i n, nth_error names i = Some n -> exists x, assoc n env' = Some x /\ ith_value keys r i x.
Proof.
  intros r. induction names as [|m names IH]; intros keys0 keys env S N K.
  - exists env. split; [reflexivity|]. intros [|i] n E; discriminate E.
  - inversion N as [|x y Nm N']; subst. cbn [assign]. destruct keys as [|k keys].
    + destruct (IH keys0 [] (set_null_if_known V null m env)) as (env' & E & H); [intros k []|exact N'| |].
      { intros n I. rewrite set_null_assoc. destruct (text_eqb n m) eqn:X; [|apply K; right; exact I].
        specialize (K m (or_introl eq_refl)). destruct (assoc m env); [discriminate|contradiction]. }
      exists env'. split; [exact E|]. intros [|i] n En; cbn in En.
      * injection En as <-. exists (Cell null). split; [|reflexivity]. rewrite (assign_other _ _ _ _ _ m E Nm), set_null_assoc, text_eqb_refl.
        specialize (K m (or_introl eq_refl)). destruct (assoc m env); [reflexivity|contradiction].
      * destruct (H i n En) as (x & Ex & Hx). exists x. split; [exact Ex|]. unfold ith_value in *. cbn. destruct i; exact Hx.
    + rewrite assoc_project by (apply S; left; reflexivity).
      destruct (IH keys0 keys (dict_set m (Cell (field V null r k)) env)) as (env' & E & H); [intros k' I; apply S; right; exact I|exact N'| |].
      { intros n I. rewrite assoc_dict_set. destruct (text_eqb n m); [discriminate|apply K; right; exact I]. }
      exists env'. split; [exact E|]. intros [|i] n En; cbn in En.
      * injection En as <-. exists (Cell (field V null r k)). split; [rewrite (assign_other _ _ _ _ _ m E Nm), assoc_dict_set, text_eqb_refl; reflexivity|].
        unfold ith_value. cbn. exists (field V null r k). split; [apply field_cell|reflexivity].
      * apply H, En.
Qed.
(** One row, several columns, several variables: each variable gets the cell of its column, surplus variables NULL. *)
Theorem into_row : forall keys names r env, 2 <= length keys -> 2 <= length names -> NoDup names ->
  exists env', select_into (Some keys) names [r] env = Ok env' /\
    (forall i n, nth_error names i = Some n -> exists x, assoc n env' = Some x /\ ith_value keys r i x) /\ others_kept names env env'.
Proof.
  intros keys names r env Lk Ln N. destruct keys as [|k1 [|k2 keys]]; try (cbn in Lk; lia). destruct names as [|n1 [|n2 names]]; try (cbn in Ln; lia).
  unfold Into_Model.select_into, store. cbn [selected]. set (ks := k1 :: k2 :: keys) in *. set (ns := n1 :: n2 :: names) in *.
  destruct (assign_row r ns ks ks (init_vars V null ns env)) as (env' & E & H); [auto|exact N|intros n I; apply init_known, I|].
  exists env'. split; [exact E|]. split; [exact H|]. intros n I. rewrite (assign_other _ _ _ _ _ n E I). apply init_others, I.
Qed.

Lemma all_fields_column : forall keys rows k, In k keys -> exists vs, all_fields V (map (project V null keys) rows) k = Some vs /\ column rows k vs.
Proof.
  intros keys rows k I. induction rows as [|r rows IH]; [exists []; split; [reflexivity|constructor]|].
  destruct IH as (vs & E & C). cbn [map all_fields]. rewrite assoc_project by exact I. rewrite E. eexists. split; [reflexivity|]. constructor; [apply field_cell|exact C].
Qed.
Lemma assign_rows : forall rows names keys0 keys env, (forall k, In k keys -> In k keys0) -> NoDup names -> (forall n, In n names -> assoc n env <> None) ->
  exists env', assign V null keys (Rows (map (project V null keys0) rows)) names env = Ok env' /\
    forall i n, nth_error names i = Some n -> exists x, assoc n env' = Some x /\ ith_column keys rows i x.
Proof.
  intros rows. induction names as [|m names IH]; intros keys0 keys env S N K.
  - exists env. split; [reflexivity|]. intros [|i] n E; discriminate E.
  - inversion N as [|x y Nm N']; subst. cbn [assign]. destruct keys as [|k keys].
    + destruct (IH keys0 [] (set_null_if_known V null m env)) as (env' & E & H); [intros k []|exact N'| |].
      { intros n I. rewrite set_null_assoc. destruct (text_eqb n m) eqn:X; [|apply K; right; exact I].
        specialize (K m (or_introl eq_refl)). destruct (assoc m env); [discriminate|contradiction]. }
      exists env'. split; [exact E|]. intros [|i] n En; cbn in En.
      * injection En as <-. exists (Cell null). split; [|reflexivity]. rewrite (assign_other _ _ _ _ _ m E Nm), set_null_assoc, text_eqb_refl.
        specialize (K m (or_introl eq_refl)). destruct (assoc m env); [reflexivity|contradiction].
      * destruct (H i n En) as (x & Ex & Hx). exists x. split; [exact Ex|]. unfold ith_column in *. cbn. destruct i; exact Hx.
    + destruct (all_fields_column keys0 rows k) as (vs & Ev & Cv); [apply S; left; reflexivity|]. rewrite Ev.
      destruct (IH keys0 keys (dict_set m (Cells vs) env)) as (env' & E & H); [intros k' I; apply S; right; exact I|exact N'| |].
      { intros n I. rewrite assoc_dict_set. destruct (text_eqb n m); [discriminate|apply K; right; exact I]. }
      exists env'. split; [exact E|]. intros [|i] n En; cbn in En.
      * injection En as <-. exists (Cells vs). split; [rewrite (assign_other _ _ _ _ _ m E Nm), assoc_dict_set, text_eqb_refl; reflexivity|].
        unfold ith_column. cbn. exists vs. split; [exact Cv|reflexivity].
      * apply H, En.
Qed.
(** Several rows (or none), several columns, several variables: each variable gets its column. *)
Theorem into_rows : forall keys names rows env, 2 <= length keys -> 2 <= length names -> NoDup names -> length rows <> 1 ->
  exists env', select_into (Some keys) names rows env = Ok env' /\
    (forall i n, nth_error names i = Some n -> exists x, assoc n env' = Some x /\ ith_column keys rows i x) /\ others_kept names env env'.
Proof.
  intros keys names rows env Lk Ln N L1. destruct keys as [|k1 [|k2 keys]]; try (cbn in Lk; lia). destruct names as [|n1 [|n2 names]]; try (cbn in Ln; lia).
  unfold Into_Model.select_into, store. set (ks := k1 :: k2 :: keys) in *. set (ns := n1 :: n2 :: names) in *.
  assert (selected V null (Some ks) (length ns) rows = Rows (map (project V null ks) rows)) as ->.
  { subst ks. cbn [selected]. destruct rows as [|r [|r2 rows]]; [reflexivity|cbn in L1; lia|reflexivity]. }
  destruct (assign_rows rows ns ks ks (init_vars V null ns env)) as (env' & E & H); [auto|exact N|intros n I; apply init_known, I|].
  exists env'. split; [exact E|]. split; [exact H|]. intros n I. rewrite (assign_other _ _ _ _ _ n E I). apply init_others, I.
Qed.
(** Several rows (or none) of one column, one variable: the column's cells (rows lacking the column are skipped). *)
Theorem into_column : forall k n rows env, length rows <> 1 -> (forall r, In r rows -> In k (map fst r)) ->
  exists env' vs, select_into (Some [k]) [n] rows env = Ok env' /\ column rows k vs /\ assoc n env' = Some (Cells vs) /\ others_kept [n] env env'.
Proof.
  intros k n rows env L H. unfold Into_Model.select_into, store. cbn [length].
  assert (X : exists vs, column rows k vs /\ concat (map (fun r => match assoc k r with Some v => [v] | None => [] end) rows) = vs).
  { clear L. induction rows as [|r rows IH]; [exists []; split; [constructor|reflexivity]|].
    destruct IH as (vs & C & E); [intros r' I; apply H; right; exact I|]. exists (field V null r k :: vs). split; [constructor; [apply field_cell|exact C]|].
    cbn [map concat]. rewrite E. unfold field. destruct (assoc k r) eqn:A; [reflexivity|]. exfalso.
    specialize (H r (or_introl eq_refl)). clear - A H. induction r as [|[k' v'] r IH]; [destruct H|]. cbn in A. destruct (text_eqb k k') eqn:E; [discriminate A|].
    apply text_eqb_neq in E. destruct H as [H|H]; [cbn in H; congruence|apply IH; assumption]. }
  destruct X as (vs & C & E). eexists. exists vs. split; [|split; [exact C|]].
  - assert (selected V null (Some [k]) 1 rows = Cells vs) as ->.
    { cbn [selected]. destruct rows as [|r [|r2 rows]]; [rewrite E; reflexivity|cbn in L; lia|rewrite E; reflexivity]. }
    reflexivity.
  - split; [rewrite assoc_dict_set, text_eqb_refl; reflexivity|]. intros m Hm. rewrite assoc_dict_set.
    assert (text_eqb m n = false) as -> by (apply text_eqb_neq; intros ->; apply Hm; left; reflexivity). apply init_others, Hm.
Qed.
(** Whatever the shapes, a statement that succeeds changes no other variable. *)
Theorem into_frame : forall schema names rows env env', select_into schema names rows env = Ok env' -> others_kept names env env'.
Proof.
  intros schema names rows env env' E n H. unfold Into_Model.select_into, store in E.
  assert (R : assoc n env' = assoc n (init_vars V null names env)); [|rewrite R; apply init_others, H].
  destruct names as [|n1 [|n2 names]].
  - destruct schema; [|injection E as <-; reflexivity]. cbn in E. injection E as <-. reflexivity.
  - assert (Nm : text_eqb n n1 = false) by (apply text_eqb_neq; intros ->; apply H; left; reflexivity).
    destruct (selected V null schema (length [n1]) rows) as [x| | |]; [destruct (is_null x)|..]; injection E as <-;
      rewrite ?set_null_assoc, ?assoc_dict_set, Nm; reflexivity.
  - destruct schema as [keys|]; [|discriminate E]. apply (assign_other _ _ _ _ _ n E H).
Qed.
End Props.

(** Concrete cases. *)
Example ex_into_row : 
  select_into (option Z) None (fun v => match v with None => true | _ => false end) (Some [t "a"; t "b"]) [t "@x"; t "@y"; t "@z"]
    [[(t "a", Some 1%Z); (t "b", Some 2%Z)]] [(t "@q", Cell (Some 9%Z))] =
  Ok [(t "@q", Cell (Some 9%Z)); (t "@x", Cell (Some 1%Z)); (t "@y", Cell (Some 2%Z)); (t "@z", Cell None)].
Proof. reflexivity. Qed.
Example ex_into_hyps : 2 <= length [t "a"; t "b"] /\ NoDup [t "@x"; t "@y"] /\ (forall v : option Z, (match v with None => true | _ => false end) = true <-> v = None).
Proof.
  split; [cbn; lia|]. split; [repeat constructor; cbn; intuition discriminate|]. intros [v|]; split; congruence.
Qed.
(** No rows: the variable becomes an empty list, neither NULL nor its old value. *)
Theorem into_empty_refuted : forall V (null : V) f k n v env, exists env', select_into V null f (Some [k]) [n] [] ((n, Cell v) :: env) = Ok env' /\
  assoc n env' = Some (Cells []).
Proof.
  intros V null f k n v env. unfold select_into, store. cbn [length selected map concat]. eexists. split; [reflexivity|].
  rewrite assoc_dict_set, text_eqb_refl. reflexivity.
Qed.
(** More variables than the one column: the statement fails instead of setting the first. *)
Theorem into_surplus_refuted : forall V (null : V) f k n1 n2 r env, select_into V null f (Some [k]) [n1; n2] [r] env = Err TypeError.
Proof. reflexivity. Qed.
(** ... and so does SELECT * into several variables. *)
Theorem into_star_refuted : forall V (null : V) f n1 n2 rows env, select_into V null f None [n1; n2] rows env = Err TypeError.
Proof. reflexivity. Qed.

Print Assumptions into_scalar.
Print Assumptions into_row.
Print Assumptions into_rows.
Print Assumptions into_column.
Print Assumptions into_frame.
Print Assumptions into_empty_refuted.
Print Assumptions into_surplus_refuted.
Print Assumptions into_star_refuted.

(** Proofs about pushed conditions. *)
From Coq Require Import SpecFloat.
From Verif Require Import Base PyVal Utils_Model Calc_Model Expr_Syntax Expr_Model Expr_Spec Expr_Proofs Where_Model Where_Spec.
Open Scope Z_scope.

(** ** The dict of pushed conditions *)
Lemma qset_in : forall q k c k' c', NoDup (map fst q) -> (In (k', c') (qset q k c) <-> (k' = k /\ c' = c) \/ (k' <> k /\ In (k', c') q)).
Proof.
  induction q as [|[k0 c0] q IH]; intros k c k' c' ND; cbn [qset].
  - split; [intros [E|[]]; injection E as <- <-; auto|intros [[-> ->]|[_ []]]; left; reflexivity].
  - cbn [map fst] in ND. inversion ND as [|? ? N1 N2]; subst. destruct (text_eqb k0 k) eqn:E.
    + apply text_eqb_spec in E. subst k0. cbn [In]. split.
      * intros [K|K]; [injection K as <- <-; auto|]. right. split; [|auto]. intros ->. apply N1. apply in_map_iff. exists (k, c'). auto.
      * intros [[-> ->]|[K [L|L]]]; [auto| |auto]. injection L as -> ->. congruence.
    + apply text_eqb_neq in E. cbn [In]. rewrite IH by exact N2. split.
      * intros [K|[K|[K L]]]; [injection K as <- <-; right; auto|auto|right; auto].
      * intros [K|[K [L|L]]]; [auto|auto|right; right; auto].
Qed.
Lemma qset_keys : forall q k c k', In k' (map fst (qset q k c)) <-> k' = k \/ In k' (map fst q).
Proof.
  induction q as [|[k0 c0] q IH]; intros k c k'; cbn [qset map fst In].
  - split; [intros [E|[]]; auto|intros [E|[]]; auto].
  - destruct (text_eqb k0 k) eqn:E; cbn [map fst In].
    + apply text_eqb_spec in E. subst. intuition auto.
    + rewrite IH. intuition auto.
Qed.
Lemma qset_nodup : forall q k c, NoDup (map fst q) -> NoDup (map fst (qset q k c)).
Proof.
  induction q as [|[k0 c0] q IH]; intros k c ND; cbn [qset map fst].
  - repeat constructor. intros [].
  - cbn [map fst] in ND. inversion ND as [|? ? N1 N2]; subst. destruct (text_eqb k0 k) eqn:E; cbn [map fst].
    + constructor; assumption.
    + constructor; [|apply IH; assumption]. rewrite qset_keys. apply text_eqb_neq in E. intros [K|K]; congruence.
Qed.
Lemma assoc_in : forall (q : querys) k c, NoDup (map fst q) -> (assoc k q = Some c <-> In (k, c) q).
Proof.
  induction q as [|[k0 c0] q IH]; intros k c ND; cbn [assoc In].
  - split; [discriminate|intros []].
  - cbn [map fst] in ND. inversion ND as [|? ? N1 N2]; subst. destruct (text_eqb k k0) eqn:E.
    + apply text_eqb_spec in E. subst k0. split; [intros K; injection K as ->; auto|].
      intros [K|K]; [congruence|]. exfalso. apply N1. apply in_map_iff. exists (k, c). auto.
    + apply text_eqb_neq in E. rewrite IH by exact N2. split; [auto|]. intros [K|K]; [congruence|auto].
Qed.
Lemma assoc_none : forall (q : querys) k, assoc k q = None <-> ~ In k (map fst q).
Proof.
  induction q as [|[k0 c0] q IH]; intros k; cbn [assoc map fst In]; [tauto|].
  destruct (text_eqb k k0) eqn:E.
  - apply text_eqb_spec in E. subst. split; [discriminate|]. intros K. exfalso. auto.
  - apply text_eqb_neq in E. rewrite IH. split; [intros A [B|B]; auto|auto].
Qed.
Lemma put_first_ops : forall l op v, forall P : text * pvalue -> bool,
  forallb P (concat (put_first l op v)) = forallb P (concat l) && P (op, v).
Proof.
  induction l as [|d l IH]; intros op v P; cbn [put_first concat].
  - cbn. rewrite andb_true_r. reflexivity.
  - destruct (has_op d op); cbn [concat]; rewrite !forallb_app.
    + rewrite IH, andb_assoc. reflexivity.
    + cbn [forallb]. rewrite andb_true_r. destruct (forallb P d), (P (op, v)), (forallb P (concat l)); reflexivity.
Qed.
Lemma build_query_nodup : forall q k op v, NoDup (map fst q) -> NoDup (map fst (build_query q k op v)).
Proof.
  intros q k op v ND. unfold build_query. destruct (assoc k q) as [[d|l]|]; [destruct (has_op d op)| |]; apply qset_nodup; exact ND.
Qed.
Lemma build_query_keys : forall q k op v k', In k' (map fst (build_query q k op v)) <-> k' = k \/ In k' (map fst q).
Proof.
  intros q k op v k'. unfold build_query. destruct (assoc k q) as [[d|l]|]; [destruct (has_op d op)| |]; apply qset_keys.
Qed.
Lemma qdel_in : forall q k k' (c : colq), In (k', c) (qdel q k) <-> k' <> k /\ In (k', c) q.
Proof.
  intros. unfold qdel. rewrite filter_In. cbn [fst]. rewrite negb_true_iff, text_eqb_neq. tauto.
Qed.
Lemma qdel_keys : forall q k k', In k' (map fst (qdel q k)) <-> k' <> k /\ In k' (map fst q).
Proof.
  intros q k k'. rewrite !in_map_iff. split.
  - intros ([k0 c] & <- & I). apply qdel_in in I. destruct I as [N I]. cbn [fst]. split; [exact N|]. exists (k0, c). auto.
  - intros (N & [k0 c] & <- & I). cbn [fst] in *. exists (k0, c). split; [reflexivity|]. apply qdel_in. auto.
Qed.
Lemma qdel_nodup : forall (q : querys) k, NoDup (map fst q) -> NoDup (map fst (qdel q k)).
Proof.
  induction q as [|[k0 c0] q IH]; intros k ND; [constructor|]. cbn [map fst] in ND. inversion ND as [|? ? N1 N2]; subst.
  unfold qdel. cbn [filter fst]. fold (qdel q k). destruct (negb (text_eqb k0 k)); [|apply IH; exact N2].
  cbn [map fst]. constructor; [|apply IH; exact N2]. intros I. apply (qdel_keys q k k0) in I. tauto.
Qed.
Lemma break_bar : forall k r, has_bar k = false -> break (N.eqb 124) (k ++ 124%N :: r) = (k, Some r).
Proof.
  induction k as [|c k IH]; intros r B; [reflexivity|]. unfold has_bar in B. cbn [existsb] in B.
  apply orb_false_iff in B. destruct B as [B1 B2]. cbn [app break]. rewrite B1, IH by exact B2. reflexivity.
Qed.
Lemma base_bar : forall k ty, has_bar k = false -> base_name (k ++ t "|" ++ ty) = k.
Proof. intros k ty B. unfold base_name. change (t "|" ++ ty) with (124%N :: ty). rewrite break_bar by exact B. reflexivity. Qed.
Lemma base_plain : forall k, has_bar k = false -> base_name k = k.
Proof.
  induction k as [|c k IH]; intros B; [reflexivity|]. unfold has_bar in B. cbn [existsb] in B.
  apply orb_false_iff in B. destruct B as [B1 B2]. unfold base_name in *. cbn [break]. rewrite B1.
  destruct (break (N.eqb 124) k) as [x y] eqn:E. cbn [fst] in *. f_equal. exact (IH B2).
Qed.
Lemma has_bar_typed : forall k ty, has_bar (k ++ t "|" ++ ty) = true.
Proof. intros. unfold has_bar. rewrite !existsb_app. cbn. apply orb_true_r. Qed.

Section Dict.
Variable H : text -> text * pvalue -> bool.     (* does the condition hold for the field named by the key *)

Definition Holds (q : querys) : Prop := forall k c, In (k, c) q -> forallb (H k) (all_ops c) = true.






Lemma holds_qset : forall q k c, NoDup (map fst q) ->
  (Holds (qset q k c) <-> forallb (H k) (all_ops c) = true /\ forall k' c', k' <> k -> In (k', c') q -> forallb (H k') (all_ops c') = true).
Proof.
  intros q k c ND. unfold Holds. split.
  - intros A. split; [apply A; apply qset_in; auto|]. intros k' c' N I. apply A. apply qset_in; auto.
  - intros [A B] k' c' I. apply qset_in in I; [|exact ND]. destruct I as [[-> ->]|[N I]]; auto.
Qed.

Lemma build_query_holds : forall q k op v, NoDup (map fst q) ->
  (Holds (build_query q k op v) <-> Holds q /\ H k (op, v) = true).
Proof.
  intros q k op v ND. unfold build_query.
  assert (Old : forall c c' , assoc k q = Some c -> (forallb (H k) (all_ops c') = forallb (H k) (all_ops c) && H k (op, v)) ->
    (Holds (qset q k c') <-> Holds q /\ H k (op, v) = true)).
  { intros c c' A F. rewrite holds_qset by exact ND. rewrite F, andb_true_iff. apply assoc_in in A; [|exact ND]. split.
    - intros [[B C] D]. split; [|exact C]. intros k' c0 I. destruct (text_eqb k' k) eqn:E.
      + apply text_eqb_spec in E. subst k'. assert (c0 = c) as ->; [|exact B].
        pose proof (proj2 (assoc_in q k c0 ND) I). pose proof (proj2 (assoc_in q k c ND) A). congruence.
      + apply text_eqb_neq in E. exact (D k' c0 E I).
    - intros [B C]. split; [split; [apply B; exact A|exact C]|]. intros k' c0 _ I. exact (B k' c0 I). }
  destruct (assoc k q) as [[d|l]|] eqn:A.
  - destruct (has_op d op); apply (Old _ _ eq_refl); cbn [all_ops].
    + rewrite put_first_ops. cbn [concat]. rewrite app_nil_r. reflexivity.
    + rewrite forallb_app. cbn [forallb]. rewrite andb_true_r. reflexivity.
  - apply (Old _ _ eq_refl). cbn [all_ops]. apply put_first_ops.
  - rewrite holds_qset by exact ND. cbn [all_ops forallb]. rewrite andb_true_r. apply assoc_none in A. split.
    + intros [B C]. split; [|exact B]. intros k' c I. apply (C k' c); [|exact I]. intros ->. apply A. apply in_map_iff. exists (k, c). auto.
    + intros [B C]. split; [exact C|]. intros k' c _ I. exact (B k' c I).
Qed.

(** *** Type suffixes *)
Hypothesis Htype : forall k ty ov, has_bar k = false -> H (k ++ t "|" ++ ty) ov = H k ov.



Lemma retype_holds : forall ks q, NoDup ks -> NoDup (map fst q) ->
  (forall k, In k ks -> has_bar k = false) ->
  (forall k, In k (map fst q) -> has_bar k = false \/ ~ In (base_name k) ks) ->
  (Holds (fold_left retype_key ks q) <-> Holds q).
Proof.
  induction ks as [|k ks IH]; intros q Nk Nq Bk Bq; [reflexivity|]. cbn [fold_left].
  inversion Nk as [|? ? N1 N2]; subst.
  assert (Same : Holds (retype_key q k) <-> Holds q).
  { unfold retype_key. rewrite (Bk k) by (left; reflexivity).
    destruct (assoc k q) as [c|] eqn:A; [|reflexivity]. destruct (common_type _ _) as [[ty|]|]; try reflexivity.
    apply assoc_in in A; [|exact Nq].
    assert (Fresh : ~ In (k ++ t "|" ++ ty) (map fst q)).
    { intros I. destruct (Bq _ I) as [F|F]; [rewrite has_bar_typed in F; discriminate|].
      apply F. rewrite base_bar by (apply Bk; left; reflexivity). left. reflexivity. }
    assert (Hk : forall ov, H (k ++ t "|" ++ ty) ov = H k ov) by (intros; apply Htype; apply Bk; left; reflexivity).
    assert (HH : forall l, forallb (H (k ++ t "|" ++ ty)) l = forallb (H k) l).
    { induction l as [|x l IHl]; [reflexivity|]. cbn [forallb]. rewrite Hk, IHl. reflexivity. }
    assert (kneq : k <> k ++ t "|" ++ ty).
    { intros E. pose proof (has_bar_typed k ty) as F. rewrite <- E, (Bk k) in F by (left; reflexivity). discriminate. }
    unfold Holds. split.
    - intros G k' c' I. destruct (text_eqb k' k) eqn:E.
      + apply text_eqb_spec in E. subst k'. assert (c' = c) as ->.
        { pose proof (proj2 (assoc_in q k c' Nq) I). pose proof (proj2 (assoc_in q k c Nq) A). congruence. }
        rewrite <- HH. apply G. apply qdel_in. split; [congruence|]. apply qset_in; auto.
      + apply text_eqb_neq in E. apply G. apply qdel_in. split; [exact E|]. apply qset_in; [exact Nq|]. right. split; [|exact I].
        intros ->. apply Fresh. apply in_map_iff. exists (k ++ t "|" ++ ty, c'). auto.
    - intros G k' c' I. apply qdel_in in I. destruct I as [E I]. apply qset_in in I; [|exact Nq].
      destruct I as [[-> ->]|[_ I]]; [rewrite HH; apply G; exact A|apply G; exact I]. }
  rewrite IH; [exact Same|exact N2| | |].
  - unfold retype_key. destruct (has_bar k); [exact Nq|]. destruct (assoc k q); [|exact Nq].
    destruct (common_type _ _) as [[ty|]|]; try exact Nq. apply qdel_nodup, qset_nodup, Nq.
  - intros k' I. apply Bk. right. exact I.
  - intros k' I. unfold retype_key in I. rewrite (Bk k) in I by (left; reflexivity).
    assert (Old : In k' (map fst q) -> has_bar k' = false \/ ~ In (base_name k') ks).
    { intros J. destruct (Bq _ J) as [F|F]; [left; exact F|right]. intros K. apply F. right. exact K. }
    destruct (assoc k q); [|apply Old; exact I]. destruct (common_type _ _) as [[ty|]|]; try (apply Old; exact I).
    apply qdel_keys in I. destruct I as [_ I]. apply qset_keys in I. destruct I as [->|I]; [|apply Old; exact I].
    right. rewrite base_bar by (apply Bk; left; reflexivity). exact N1.
Qed.
End Dict.

(** ** The compiled WHERE clause *)
Lemma push_op_sql : forall k op, push_op k = Some op -> sql_op op = k /\ comparison_op k = true /\ text_eqb op (t "in") = false.
Proof.
  intros k op. unfold push_op.
  repeat (match goal with |- context [text_eqb k ?x] => destruct (text_eqb k x) eqn:E;
    [apply text_eqb_spec in E; subst k; intros X; injection X as <-; repeat split; reflexivity|clear E] end).
  discriminate.
Qed.

Section Clause.
Variable frepr : spec_float -> text.
Variable ident : val -> val -> bool.
Variable ext : text -> option (list val -> val).
Variable lib : text -> list val -> val.
Variable tt : text -> bool.
Hypothesis no_neg : ext (t "neg") = None.
Variable primary : text -> bool.
Variable typing_name : text -> text.
Variable field row : text -> val.
Hypothesis plain_names : forall n, primary n = true -> has_bar (typing_name n) = false.
Hypothesis same_field : forall n, primary n = true -> field (typing_name n) = row n.

Notation fn := (sql_fn frepr ident ext lib).
Notation sem := (sem tt fn).
Notation compile := (compile frepr ident ext).
Notation ev := (ev frepr ident ext lib).
Notation where_cond := (where_cond compile primary typing_name).

Lemma map_closed : forall r r' l, Forall (fun e => has_column e = false -> forall r r', sem r e = sem r' e) l ->
  existsb has_column l = false -> map (sem r) l = map (sem r') l.
Proof.
  intros r r' l A. induction A as [|x l Hx Hl IH]; intros F; [reflexivity|]; cbn [existsb map] in *; apply orb_false_iff in F; destruct F.
  f_equal; [apply Hx; assumption|apply IH; assumption].
Qed.

Lemma sem_closed : forall e, has_column e = false -> forall r r', sem r e = sem r' e.
Proof.
  intros e. induction e as [v|n|a IHa|a IHa|a IHa|a b IHa IHb|a b IHa IHb|a b IHa IHb|k a b IHa IHb|a l IHa IHl|a lo hi IHa IHlo IHhi
                 |c a f IHc IHa IHf|a b IHa IHb|a l IHa IHl|o ifs els IHo IHifs IHels|k l IHl] using expr_induction;
  intros E r r'; cbn [has_column Expr_Spec.sem] in *;
  repeat match goal with K : _ || _ = false |- _ => apply orb_false_iff in K; destruct K end;
  try discriminate; try reflexivity.
  all: pose proof (map_closed r r') as L.
  - apply IHa; exact E.
  - rewrite (IHa E r r'). reflexivity.
  - rewrite (IHa E r r'). reflexivity.
  - rewrite (IHa H r r'), (IHb H0 r r'). reflexivity.
  - rewrite (IHa H r r'), (IHb H0 r r'). reflexivity.
  - rewrite (IHa H r r'), (IHb H0 r r'). reflexivity.
  - rewrite (IHa H r r'), (IHb H0 r r'). reflexivity.
  - rewrite (IHa H r r'). rewrite <- (map_map (sem r) (fun y => truth tt (fn (t "eq") [sem r' a; y]))).
    rewrite (L l IHl H0), map_map. reflexivity.
  - rewrite (IHa H r r'), (IHlo H1 r r'), (IHhi H0 r r'). reflexivity.
  - rewrite (IHc H r r'), (IHa H1 r r'). destruct f as [f|]; [|reflexivity]. cbn [opt_all] in IHf. rewrite (IHf H0 r r'). reflexivity.
  - rewrite (IHa H r r'), (IHb H0 r r'). reflexivity.
  - rewrite (IHa H r r'), (L l IHl H0). reflexivity.
  - assert (els = None \/ exists y, els = Some y) as Q by (destruct els; eauto).
    assert (match els with Some b => sem r b | None => VNone end = match els with Some b => sem r' b | None => VNone end) as ->.
    { destruct els as [y|]; [|reflexivity]. cbn [opt_all] in IHels. apply IHels. exact H0. }
    f_equal. clear - H H1 IHo IHifs. induction ifs as [|[w y] ifs IH]; [reflexivity|].
    apply Forall_cons_iff in IHifs. destruct IHifs as [[Hw Hy] IHifs]. cbn [existsb fst snd map] in *.
    apply orb_false_iff in H1. destruct H1 as [H1 H2]. apply orb_false_iff in H1. destruct H1 as [H1 H3].
    f_equal; [|apply IH; assumption]. rewrite (Hw H1 r r'), (Hy H3 r r').
    destruct o as [c|]; [|reflexivity]. cbn [opt_all] in IHo. rewrite (IHo H r r'). reflexivity.
  - rewrite (L l IHl E). reflexivity.
Qed.

Definition HH (k : text) (ov : text * pvalue) : bool := op_holds frepr ident ext lib (field (base_name k)) ov.

Lemma source_keeps_holds : forall q, source_keeps frepr ident ext lib field q = true <-> Holds HH q.
Proof.
  intros q. unfold source_keeps, Holds. rewrite forallb_forall. split.
  - intros A k c I. apply (A (k, c) I).
  - intros A [k c] I. apply (A k c I).
Qed.

Definition T (e : expr) : Prop := truth tt (sem row e) = Some true.

Lemma T_and_iff : forall a b, T (EAnd a b) <-> T a /\ T b.
Proof.
  intros. unfold T. cbn [Expr_Spec.sem]. rewrite truth_of3.
  destruct (truth tt (sem row a)) as [[]|], (truth tt (sem row b)) as [[]|]; cbn; split; try tauto; try discriminate; intros []; congruence.
Qed.

Lemma cond_and : forall a b, cond (EAnd a b) -> cond a /\ cond b.
Proof.
  intros a b C. inversion C as [x X B| | |x y Ca Cb| | |]; subst; [|auto].
  inversion X; subst. split; apply C_bool; assumption.
Qed.
Lemma cond_paren : forall a, cond (EParen a) -> cond a.
Proof. intros a C. inversion C as [x X B| |x Ca| | | |]; subst; [|auto]. inversion X; subst. inversion B; subst. apply C_bool; assumption. Qed.

Lemma pushed_binary : forall k op n b, push_op k = Some op -> primary n = true -> has_column b = false -> exact b ->
  (HH (typing_name n) (op, PV (compile b)) = true <-> T (EBin k (ECol n) b)).
Proof.
  intros k op n b Hop Hn Hb Xb. destruct (push_op_sql k op Hop) as (E & C & _).
  unfold HH, op_holds, T. cbn [fst snd Expr_Spec.sem]. rewrite E, (base_plain _ (plain_names n Hn)), (same_field n Hn).
  rewrite (proj1 (compiled frepr ident ext lib tt no_neg b no_row) Xb), (sem_closed b Hb no_row row).
  assert (call_mysql frepr ident ext k [row n; sem row b] = fn k [row n; sem row b]) as ->.
  { clear E Hop. apply call_mysql_fn. unfold comparison_op in C. cbn [existsb] in C.
    repeat (apply orb_true_iff in C; destruct C as [C|C]; [apply text_eqb_spec in C; subst k; reflexivity|]). discriminate C. }
  apply truthy_bool3, bool3_cmp, C.
Qed.

Lemma pushed_in : forall n l, primary n = true -> l <> [] -> Forall exact l ->
  (forall y, In y l -> forall r r', sem r y = sem r' y) ->
  (HH (typing_name n) (t "in", PL (map compile l)) = true <-> T (EIn (ECol n) l)).
Proof.
  intros n l Hn Nl Xl Cl. unfold HH, op_holds, T. cbn [snd Expr_Spec.sem].
  rewrite (base_plain _ (plain_names n Hn)), (same_field n Hn).
  assert (map (ev no_row) (map compile l) = map (sem row) l) as ->.
  { clear Nl. induction l as [|y l IH]; [reflexivity|]. cbn [map]. inversion Xl; subst. f_equal.
    - rewrite (proj1 (compiled frepr ident ext lib tt no_neg y no_row)) by assumption. apply Cl. left. reflexivity.
    - apply IH; [assumption|]. intros z I. apply Cl. right. exact I. }
  rewrite (in_value frepr ident ext lib tt) by (destruct l; [congruence|discriminate]). rewrite map_map.
  rewrite truth_of3. destruct (fold_right _ _ _) as [[]|]; cbn; split; congruence.
Qed.

Definition good_keys (q : querys) : Prop := NoDup (map fst q) /\ forall k, In k (map fst q) -> has_bar k = false.

Lemma where_cond_spec : forall e q, cond e -> good_keys q ->
  top_level (fun x => column_left x /\ constant_items sem x) e ->
  let '(m, r, q') := where_cond e q in
  good_keys q' /\ exists P : Prop,
    (Holds HH q' <-> Holds HH q /\ P) /\ cond m /\ (P -> (T m <-> T e)) /\
    match r with
    | None => T e <-> P
    | Some x => cond x /\ (T e <-> P /\ T x)
    end.
Proof.
  assert (Keep : forall e q, cond e -> good_keys q ->
    good_keys q /\ exists P : Prop, (Holds HH q <-> Holds HH q /\ P) /\ cond e /\ (P -> (T e <-> T e)) /\ (cond e /\ (T e <-> P /\ T e))).
  { intros e q C G. split; [exact G|]. exists True. tauto. }
  assert (Push : forall e q n op v, good_keys q -> primary n = true -> (HH (typing_name n) (op, v) = true <-> T e) ->
    good_keys (build_query q (typing_name n) op v) /\ exists P : Prop,
      (Holds HH (build_query q (typing_name n) op v) <-> Holds HH q /\ P) /\ cond (EConst (VInt 1)) /\
      (P -> (T (EConst (VInt 1)) <-> T e)) /\ (T e <-> P)).
  { intros e q n op v [G1 G2] Hn Hv. split.
    - split; [apply build_query_nodup; exact G1|]. intros k I. apply build_query_keys in I. destruct I as [->|I]; [apply plain_names; exact Hn|auto].
    - exists (T e). split; [rewrite (build_query_holds HH _ _ _ _ G1); rewrite Hv; reflexivity|].
      split; [apply C_const; discriminate|]. split; [|reflexivity]. intros K. split; [auto|reflexivity]. }
  induction e; intros q C G TL; cbn [Where_Model.where_cond]; try (apply Keep; assumption).
  - (* paren *) inversion TL as [|a TLa|x N0 N1 K0]; subst; [|exfalso; eapply N1; reflexivity].
    apply cond_paren in C. specialize (IHe q C G TLa). destruct (where_cond e q) as [[m r] q'].
    destruct IHe as (G' & P & A & B & D & E). split; [exact G'|]. exists P. split; [exact A|]. split; [apply C_paren; exact B|].
    split; [exact D|exact E].
  - (* and *) inversion TL as [a b TLa TLb| |? N _ _]; subst; [|exfalso; eapply N; reflexivity].
    apply cond_and in C. destruct C as [Ca Cb]. specialize (IHe1 q Ca G TLa). destruct (where_cond e1 q) as [[ma ra] q1].
    destruct IHe1 as (G1 & P1 & A1 & B1 & D1 & E1). specialize (IHe2 q1 Cb G1 TLb). destruct (where_cond e2 q1) as [[mb rb] q2].
    destruct IHe2 as (G2 & P2 & A2 & B2 & D2 & E2). split; [exact G2|]. exists (P1 /\ P2).
    split; [rewrite A2, A1; tauto|]. split; [apply C_and; assumption|]. split.
    { intros [K1 K2]. rewrite !T_and_iff, (D1 K1), (D2 K2). reflexivity. }
    pose proof (T_and_iff e1 e2) as TT. destruct ra as [xa|], rb as [xb|].
    + split; [apply C_and; assumption|]. rewrite !T_and_iff. destruct E1 as [_ E1], E2 as [_ E2]. tauto.
    + destruct E1 as [Cx E1]. split; [exact Cx|]. tauto.
    + destruct E2 as [Cx E2]. split; [exact Cx|]. tauto.
    + tauto.
  - (* binary *) destruct (push_op key) as [op|] eqn:Hop; [|apply Keep; assumption].
    inversion TL as [| |? _ _ [CL _]]; subst.
    assert (Xe : exact e1 /\ exact e2). { inversion C as [x X B| | | | | |]; subst. inversion X; subst. auto. }
    destruct Xe as [X1 X2].
    assert (K : parse_binary compile primary e1 e2 = None \/
      exists n, e1 = ECol n /\ primary n = true /\ has_column e2 = false /\ parse_binary compile primary e1 e2 = Some (n, PV (compile e2))).
    { unfold parse_binary. destruct e1 as [| n | | | | | | | | | | | | | |];
        try (destruct e2 as [| n2 | | | | | | | | | | | | | |]; try (left; reflexivity);
             exfalso; destruct (CL key _ n2 eq_refl); discriminate).
      destruct (primary n) eqn:Pn; [|left; reflexivity]. destruct (has_column e2) eqn:Hc; [left; reflexivity|].
      right. exists n. auto. }
    destruct K as [->|(n & -> & Pn & Hc & ->)]; [apply Keep; assumption|].
    apply Push; [exact G|exact Pn|]. apply pushed_binary; assumption.
  - (* in *) inversion TL as [| |? _ _ [_ CI]]; subst.
    assert (Xe : exact e /\ l <> [] /\ Forall exact l). { inversion C as [x X B| | | | | |]; subst. inversion X; subst. auto. }
    destruct Xe as (X1 & Nl & Xl). unfold parse_in.
    destruct e as [| n | | | | | | | | | | | | | |]; try (apply Keep; assumption).
    destruct (primary n) eqn:Pn; [|apply Keep; assumption].
    apply Push; [exact G|exact Pn|]. apply pushed_in; auto. intros y I. eapply CI; eauto.
Qed.

Lemma retype_same : forall q, good_keys q -> (Holds HH (retype q) <-> Holds HH q).
Proof.
  intros q [ND B]. unfold retype. apply retype_holds; auto.
  intros k ty ov Hk. unfold HH. rewrite base_bar by exact Hk. rewrite base_plain by exact Hk. reflexivity.
Qed.
End Clause.

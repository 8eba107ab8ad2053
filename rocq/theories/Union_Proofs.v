(** Lemmas for Union_Props.v *)
From Coq Require Import Permutation Sorting.Sorted Lia.
From Verif Require Import Base Agg_Model Json_Proofs Union_Model Union_Spec.

(* ---- the order of text ---- *)
Lemma text_le_total a : forall b, text_le a b = true \/ text_le b a = true.
Proof.
  induction a as [|x a IH]; intros [|y b]; cbn; auto.
  destruct (N.ltb_spec x y); auto. destruct (N.ltb_spec y x); auto.
  assert (x = y) by lia. subst. rewrite N.eqb_refl. cbn. apply IH.
Qed.
Lemma text_le_antisym a : forall b, text_le a b = true -> text_le b a = true -> a = b.
Proof.
  induction a as [|x a IH]; intros [|y b]; cbn; try discriminate; auto.
  intros H G. apply Bool.orb_true_iff in H, G. rewrite Bool.andb_true_iff, N.ltb_lt, N.eqb_eq in H, G.
  destruct H as [H|[H1 H2]], G as [G|[G1 G2]]; try lia. f_equal; auto.
Qed.
Lemma text_le_trans a : forall b c, text_le a b = true -> text_le b c = true -> text_le a c = true.
Proof.
  induction a as [|x a IH]; intros [|y b] [|z c]; cbn; try discriminate; auto.
  rewrite !Bool.orb_true_iff, !Bool.andb_true_iff, !N.ltb_lt, !N.eqb_eq.
  intros [H|[H1 H2]] [G|[G1 G2]]; [left; lia|left; lia|left; lia|right; split; [lia|eauto]].
Qed.
Lemma tinsert_comm x y l : tinsert x (tinsert y l) = tinsert y (tinsert x l).
Proof.
  induction l as [|z l IH]; cbn [tinsert].
  - destruct (text_le x y) eqn:A, (text_le y x) eqn:B; auto.
    + rewrite (text_le_antisym _ _ A B). reflexivity.
    + destruct (text_le_total x y); congruence.
  - destruct (text_le y z) eqn:A, (text_le x z) eqn:B; cbn [tinsert]; rewrite ?A, ?B.
    + destruct (text_le x y) eqn:C, (text_le y x) eqn:D; auto.
      * rewrite (text_le_antisym _ _ C D). reflexivity.
      * destruct (text_le_total x y); congruence.
    + destruct (text_le x y) eqn:C; [|reflexivity].
      rewrite (text_le_trans _ _ _ C A) in B. discriminate.
    + destruct (text_le y x) eqn:C; [|reflexivity].
      rewrite (text_le_trans _ _ _ C B) in A. discriminate.
    + f_equal. apply IH.
Qed.
Lemma tsort_perm l l' : Permutation l l' -> tsort l = tsort l'.
Proof.
  induction 1; cbn [tsort]; auto; try congruence. apply tinsert_comm.
Qed.
Lemma tinsert_perm x l : Permutation (x :: l) (tinsert x l).
Proof.
  induction l as [|y l IH]; cbn [tinsert]; auto.
  destruct (text_le x y); auto. rewrite perm_swap. constructor. exact IH.
Qed.
Lemma tsort_is_perm l : Permutation l (tsort l).
Proof. induction l; cbn [tsort]; auto. rewrite <- tinsert_perm. constructor. assumption. Qed.
Lemma tsort_sorted l : StronglySorted (fun a b => text_le a b = true) l -> tsort l = l.
Proof.
  induction 1 as [|x l H IH F]; cbn [tsort]; auto. rewrite IH.
  destruct l as [|y l]; cbn [tinsert]; auto. inversion F; subst.
  replace (text_le x y) with true; auto.
Qed.
Lemma tsort_unique u l : Permutation u l -> StronglySorted (fun a b => text_le a b = true) u -> tsort l = u.
Proof. intros P S. rewrite <- (tsort_perm _ _ P). apply tsort_sorted, S. Qed.

(* ---- dictionaries ---- *)
Lemma assoc_some_in A k (m : list (text * A)) v : assoc k m = Some v -> In k (map fst m).
Proof.
  induction m as [|[k' v'] m IH]; cbn [assoc map fst]; [discriminate|].
  destruct (text_eqb k k') eqn:E; [apply text_eqb_spec in E; subst; left; reflexivity|right; auto].
Qed.
Lemma assoc_in_some A k (m : list (text * A)) : In k (map fst m) -> exists v, assoc k m = Some v.
Proof.
  induction m as [|[k' v'] m IH]; cbn [assoc map fst]; [intros []|].
  destruct (text_eqb k k') eqn:E; [eauto|]. intros [->|H]; [rewrite text_eqb_refl in E; discriminate|auto].
Qed.
Lemma assoc_map A B (f : A -> B) k m : assoc k (map (fun c => (fst c, f (snd c))) m) = option_map f (assoc k m).
Proof. induction m as [|[k' v'] m IH]; cbn; auto. destruct (text_eqb k k'); auto. Qed.
Lemma combine_map A (m : list (text * A)) : forall B (f : A -> B),
  combine (map fst m) (map (fun c => f (snd c)) m) = map (fun c => (fst c, f (snd c))) m.
Proof. induction m as [|c m IH]; intros B f; cbn; auto. f_equal. apply IH. Qed.
Lemma keys_dict_set_in A k (v : A) m : In k (map fst m) -> map fst (dict_set k v m) = map fst m.
Proof.
  induction m as [|[k' v'] m IH]; cbn [dict_set map fst]; [intros []|].
  destruct (text_eqb k k') eqn:E; cbn [map fst]; [auto|].
  intros [->|H]; [rewrite text_eqb_refl in E; discriminate|]. f_equal; auto.
Qed.
Lemma keys_dict_set_new A k (v : A) m : ~ In k (map fst m) -> map fst (dict_set k v m) = map fst m ++ [k].
Proof.
  induction m as [|[k' v'] m IH]; cbn [dict_set map fst]; auto.
  destruct (text_eqb k k') eqn:E; cbn [map fst].
  - apply text_eqb_spec in E. subst. intros H. destruct H; left; reflexivity.
  - intros H. cbn. f_equal. apply IH. intros G. apply H. right. exact G.
Qed.

(* ---- the names of the result ---- *)
Definition add_names (o own : list text) : list text :=
  map fst (fold_left (fun m n => dict_set n tt m) own (map (fun n => (n, tt)) o)).
Lemma unit_dict (m : list (text * unit)) : map (fun n => (n, tt)) (map fst m) = m.
Proof. induction m as [|[k []] m IH]; cbn; congruence. Qed.
Lemma names_unit o : map fst (map (fun n : text => (n, tt)) o) = o.
Proof. induction o; cbn; congruence. Qed.
Lemma add_names_cons o n own : add_names o (n :: own) = add_names (map fst (dict_set n tt (map (fun n => (n, tt)) o))) own.
Proof. unfold add_names. cbn [fold_left]. rewrite unit_dict. reflexivity. Qed.
Lemma add_names_one o n : map fst (dict_set n tt (map (fun n => (n, tt)) o)) = if in_dec text_eq_dec n o then o else o ++ [n].
Proof.
  destruct (in_dec text_eq_dec n o) as [H|H].
  - rewrite keys_dict_set_in, names_unit; auto. rewrite names_unit. exact H.
  - rewrite keys_dict_set_new, names_unit; auto. rewrite names_unit. exact H.
Qed.
Lemma add_names_prefix own : forall o, exists e, add_names o own = o ++ e.
Proof.
  induction own as [|n own IH]; intros o.
  - exists []. unfold add_names. cbn [fold_left]. rewrite names_unit, app_nil_r. reflexivity.
  - rewrite add_names_cons, add_names_one. destruct (in_dec text_eq_dec n o); [apply IH|].
    destruct (IH (o ++ [n])) as [e ->]. rewrite <- app_assoc. eauto.
Qed.
Lemma add_names_in own : forall o x, In x (add_names o own) <-> In x o \/ In x own.
Proof.
  induction own as [|n own IH]; intros o x.
  - unfold add_names. cbn [fold_left In]. rewrite names_unit. tauto.
  - rewrite add_names_cons, add_names_one, IH. destruct (in_dec text_eq_dec n o); cbn [In].
    + split; [tauto|]. intros [H|[->|H]]; auto.
    + rewrite in_app_iff. cbn. tauto.
Qed.
Lemma NoDup_app_one A (l : list A) x : NoDup l -> ~ In x l -> NoDup (l ++ [x]).
Proof.
  intros H G. apply (Permutation_NoDup (l := x :: l)); [|constructor; assumption].
  change (x :: l) with ([x] ++ l). apply Permutation_app_comm.
Qed.
Lemma add_names_nodup own : forall o, NoDup o -> NoDup (add_names o own).
Proof.
  induction own as [|n own IH]; intros o H.
  - unfold add_names. cbn [fold_left]. rewrite names_unit. exact H.
  - rewrite add_names_cons, add_names_one. apply IH. destruct (in_dec text_eq_dec n o); auto.
    apply NoDup_app_one; assumption.
Qed.
Lemma add_names_sub own : forall o, incl own o -> add_names o own = o.
Proof.
  induction own as [|n own IH]; intros o H.
  - unfold add_names. cbn [fold_left]. apply names_unit.
  - rewrite add_names_cons, add_names_one. destruct (in_dec text_eq_dec n o) as [G|G].
    + apply IH. intros x X. apply H. right. exact X.
    + destruct G. apply H. left. reflexivity.
Qed.
Lemma add_names_nil_aux own : forall o, NoDup (o ++ own) -> add_names o own = o ++ own.
Proof.
  induction own as [|n own IH]; intros o H.
  - unfold add_names. cbn [fold_left]. rewrite names_unit, app_nil_r. reflexivity.
  - rewrite add_names_cons, add_names_one. destruct (in_dec text_eq_dec n o) as [G|G].
    + apply NoDup_remove_2 in H. destruct H. apply in_or_app. left. exact G.
    + rewrite IH; rewrite <- app_assoc; [reflexivity|exact H].
Qed.
Lemma add_names_nil own : NoDup own -> add_names [] own = own.
Proof. intros H. apply add_names_nil_aux. exact H. Qed.

(* ---- pairing ---- *)
Lemma pair_same A us : forall (schema : list (text * A)), pair_columns us us schema = schema.
Proof. induction us as [|u us IH]; intros schema; cbn [pair_columns]; auto. rewrite text_eqb_refl. apply IH. Qed.
Lemma pair_keep A us : forall ss (schema : list (text * A)) n, ~ In n us ->
  assoc n (pair_columns us ss schema) = assoc n schema.
Proof.
  induction us as [|u us IH]; intros [|s ss] schema n H; cbn [pair_columns]; auto.
  rewrite IH by (intros G; apply H; right; exact G).
  destruct (text_eqb u s); auto. destruct (assoc s schema); auto.
  rewrite assoc_dict_set. destruct (text_eqb n u) eqn:E; auto.
  apply text_eqb_spec in E. subst. destruct H. left. reflexivity.
Qed.
Lemma pair_nth A : forall us ss (schema : list (text * A)) i a b,
  NoDup us -> nth_error us i = Some a -> nth_error ss i = Some b ->
  (forall j, (j < i)%nat -> nth_error us j = Some b -> nth_error ss j = Some b) ->
  In b (map fst schema) ->
  assoc a (pair_columns us ss schema) = assoc b schema.
Proof.
  induction us as [|u us IH]; intros [|s ss] schema [|i] a b ND Ha Hb Hj Hin; try discriminate Ha; try discriminate Hb.
  - cbn in Ha, Hb. injection Ha as ->. injection Hb as ->. cbn [pair_columns].
    inversion ND; subst. rewrite pair_keep by assumption.
    destruct (text_eqb a b) eqn:E; [apply text_eqb_spec in E; subst; reflexivity|].
    destruct (assoc_in_some _ _ _ Hin) as [v ->].
    rewrite assoc_dict_set, text_eqb_refl. reflexivity.
  - cbn in Ha, Hb. cbn [pair_columns]. inversion ND; subst.
    rewrite IH with (i := i) (b := b); auto.
    + destruct (text_eqb u s) eqn:E; auto. destruct (assoc s schema); auto.
      rewrite assoc_dict_set. destruct (text_eqb b u) eqn:F; auto.
      apply text_eqb_spec in F. subst u. specialize (Hj 0%nat ltac:(lia) eq_refl). cbn in Hj. injection Hj as ->.
      rewrite text_eqb_refl in E. discriminate.
    + intros j J. apply (Hj (S j)). lia.
    + destruct (text_eqb u s); auto. destruct (assoc s schema); auto.
      destruct (in_dec text_eq_dec u (map fst schema)).
      * rewrite keys_dict_set_in; auto.
      * rewrite keys_dict_set_new; auto. apply in_or_app. left. exact Hin.
Qed.

From Coq Require Import Permutation Sorting.Sorted.
From Verif Require Import Base Select_Model Select_Spec.
Local Open Scope Z_scope.

(** ** Slices *)
Lemma pyslice_skip : forall A (l : list A) o, 0 <= o -> pyslice l (Some o) None = skipn (Z.to_nat o) l.
Proof.
  intros A l o H. unfold pyslice, clampidx. cbv zeta. replace (o <? 0) with false by (symmetry; apply Z.ltb_ge; lia).
  replace (Z.to_nat (Z.min o (Z.of_nat (length l)))) with (Nat.min (Z.to_nat o) (length l)) by lia.
  destruct (Nat.le_gt_cases (Z.to_nat o) (length l)).
  - rewrite Nat.min_l by lia. apply firstn_all2. rewrite skipn_length. lia.
  - rewrite Nat.min_r by lia. rewrite skipn_all, (skipn_all2 l) by lia. apply firstn_nil.
Qed.
Lemma pyslice_page : forall A (l : list A) o n, 0 <= o -> 0 < n ->
  pyslice l (Some o) (Some (o + n)) = page (Z.to_nat o) (Z.to_nat n) l.
Proof.
  intros A l o n H1 H2. unfold pyslice, clampidx, page. cbv zeta.
  replace (o <? 0) with false by (symmetry; apply Z.ltb_ge; lia).
  replace (o + n <? 0) with false by (symmetry; apply Z.ltb_ge; lia).
  replace (Z.to_nat (Z.min o (Z.of_nat (length l)))) with (Nat.min (Z.to_nat o) (length l)) by lia.
  replace (Z.to_nat (Z.min (o + n) (Z.of_nat (length l)))) with (Nat.min (Z.to_nat o + Z.to_nat n) (length l)) by lia.
  destruct (Nat.le_gt_cases (Z.to_nat o) (length l)).
  - rewrite (Nat.min_l (Z.to_nat o)) by lia.
    destruct (Nat.le_gt_cases (Z.to_nat o + Z.to_nat n) (length l)).
    + rewrite Nat.min_l by lia. f_equal. lia.
    + rewrite Nat.min_r by lia. rewrite !firstn_all2; rewrite ?skipn_length; try lia. reflexivity.
  - rewrite (Nat.min_r (Z.to_nat o)) by lia. rewrite skipn_all, (skipn_all2 l) by lia. rewrite !firstn_nil. reflexivity.
Qed.
Lemma skipn_firstn_page : forall A (l : list A) o n, skipn o (firstn (o + n) l) = page o n l.
Proof. intros. unfold page. symmetry. rewrite <- firstn_skipn_comm. reflexivity. Qed.

(** ** The stable sort *)
Section Sort.
Variable A : Type.
Variable le : A -> A -> bool.
Hypothesis TP : total_preorder le.

Lemma insert_perm : forall x l, Permutation (x :: l) (insert le x l).
Proof.
  intros x. induction l as [|y l IH]; cbn [insert]; [apply Permutation_refl|].
  destruct (le x y); [apply Permutation_refl|]. rewrite perm_swap. apply perm_skip, IH.
Qed.
Lemma sort_perm : forall l, Permutation l (sort le l).
Proof.
  induction l as [|x l IH]; [apply Permutation_refl|]. unfold sort. cbn [fold_right]. fold (sort le l).
  rewrite <- insert_perm. apply perm_skip, IH.
Qed.
Lemma insert_sorted : forall x l, StronglySorted (fun x y => le x y = true) l -> StronglySorted (fun x y => le x y = true) (insert le x l).
Proof.
  destruct TP as [Tot Tr]. intros x. induction l as [|y l IH]; intros S; cbn [insert]; [repeat constructor|].
  apply StronglySorted_inv in S. destruct S as [S F]. destruct (le x y) eqn:E.
  - constructor; [constructor; assumption|]. constructor; [exact E|]. eapply Forall_impl; [|exact F]. cbv beta. intros z. apply (Tr _ _ _ E).
  - constructor; [apply IH; exact S|]. assert (E2 : le y x = true) by (destruct (Tot x y); congruence).
    apply (Permutation_Forall (insert_perm x l)). constructor; assumption.
Qed.
Lemma sort_sorted : forall l, StronglySorted (fun x y => le x y = true) (sort le l).
Proof. induction l; [constructor|]. unfold sort. cbn [fold_right]. apply insert_sorted. exact IHl. Qed.
(** Rows equivalent to x are not moved over each other. *)
Lemma insert_stable : forall x y l,
  filter (fun z => le x z && le z x) (insert le y l) = filter (fun z => le x z && le z x) (y :: l).
Proof.
  destruct TP as [Tot Tr]. intros x y. induction l as [|z l IH]; [reflexivity|]. cbn [insert]. destruct (le y z) eqn:E; [reflexivity|].
  cbn [filter]. rewrite IH. cbn [filter]. destruct (le x y && le y x) eqn:Ey, (le x z && le z x) eqn:Ez; try reflexivity.
  apply andb_prop in Ey, Ez. destruct Ey as [_ Ey], Ez as [Ez _]. rewrite (Tr _ _ _ Ey Ez) in E. discriminate.
Qed.
Lemma sort_stable : forall x l, filter (fun z => le x z && le z x) (sort le l) = filter (fun z => le x z && le z x) l.
Proof.
  intros x. induction l as [|y l IH]; [reflexivity|]. unfold sort. cbn [fold_right]. fold (sort le l).
  rewrite insert_stable. cbn [filter]. rewrite IH. reflexivity.
Qed.
Lemma sort_sorted_as : forall l, sorted_as le l (sort le l).
Proof. intros l. split; [apply sort_perm|]. split; [apply sort_sorted|]. intros x. apply sort_stable. Qed.
(** The sorted list is unique. *)
Lemma sorted_as_unique : forall l a b, sorted_as le l a -> sorted_as le l b -> a = b.
Proof.
  destruct TP as [Tot Tr]. intros l a b (Pa & Sa & Fa) (Pb & Sb & Fb).
  assert (P : Permutation a b) by (rewrite <- Pa; exact Pb).
  assert (F : forall x, filter (fun y => le x y && le y x) a = filter (fun y => le x y && le y x) b) by (intros x; rewrite Fa, Fb; reflexivity).
  clear Pa Pb Fa Fb l. revert b P Sb F. induction a as [|x a IH]; intros b P Sb F.
  - apply Permutation_nil in P. congruence.
  - destruct b as [|y b]; [symmetry in P; apply Permutation_nil in P; discriminate|].
    assert (R : forall z, le z z = true) by (intros z; destruct (Tot z z); assumption).
    apply StronglySorted_inv in Sa, Sb. destruct Sa as [Sa Fa], Sb as [Sb Fb].
    assert (Lxy : le x y = true).
    { assert (I : In y (x :: a)) by (apply (Permutation_in y (Permutation_sym P)); left; reflexivity).
      destruct I as [<-|I]; [apply R|]. rewrite Forall_forall in Fa. apply Fa, I. }
    assert (Lyx : le y x = true).
    { assert (I : In x (y :: b)) by (apply (Permutation_in x P); left; reflexivity).
      destruct I as [<-|I]; [apply R|]. rewrite Forall_forall in Fb. apply Fb, I. }
    pose proof (F x) as Fx. cbn [filter] in Fx. rewrite !R, Lxy, Lyx in Fx. cbn [andb] in Fx. injection Fx as <- _.
    f_equal. apply IH; [exact Sa|eapply Permutation_cons_inv; exact P|exact Sb|].
    intros z. pose proof (F z) as Fz. cbn [filter] in Fz. destruct (le z x && le x z); [injection Fz as Fz|]; exact Fz.
Qed.
End Sort.

(** ** le_by *)
Lemma lex_total : forall A K (leK : K -> K -> bool), total_preorder leK ->
  forall keys : list ((A -> K) * bool), total_preorder (lex_le leK keys).
Proof.
  intros A K leK [Tot Tr]. induction keys as [|[f d] r [IT ITr]]; [split; cbn; auto|]. split.
  - intros x y. cbn [lex_le]. destruct d.
    + destruct (leK (f y) (f x)) eqn:E1, (leK (f x) (f y)) eqn:E2; cbn; auto; try (destruct (Tot (f x) (f y)); congruence).
    + destruct (leK (f y) (f x)) eqn:E1, (leK (f x) (f y)) eqn:E2; cbn; auto; try (destruct (Tot (f x) (f y)); congruence).
  - intros x y z. cbn [lex_le].
    assert (G : forall a b c, leK a b && (negb (leK b a) || lex_le leK r x y) = true -> leK b c && (negb (leK c b) || lex_le leK r y z) = true ->
       leK a c && (negb (leK c a) || lex_le leK r x z) = true).
    { intros a b c H1 H2. apply andb_prop in H1, H2. destruct H1 as [H1 H1'], H2 as [H2 H2'].
      rewrite (Tr _ _ _ H1 H2). cbn [andb]. destruct (leK c a) eqn:E; [|reflexivity]. cbn [negb orb].
      rewrite (Tr _ _ _ E H1) in H2'. rewrite (Tr _ _ _ H2 E) in H1'. cbn [negb orb] in *. eapply ITr; eassumption. }
    destruct d; [|apply G]. intros H1 H2.
    apply andb_prop in H1, H2. destruct H1 as [H1 H1'], H2 as [H2 H2'].
    rewrite (Tr _ _ _ H2 H1). cbn [andb]. destruct (leK (f x) (f z)) eqn:E; [|reflexivity]. cbn [negb orb].
    rewrite (Tr _ _ _ E H2) in H1'. rewrite (Tr _ _ _ H1 E) in H2'. cbn [negb orb] in *. eapply ITr; eassumption.
Qed.
Lemma le_by_lex : forall A K (leK : K -> K -> bool) (field : text -> A -> K) keys x y,
  le_by K leK field keys x y = lex_le leK (map (fun k => (field (fst k), snd k)) keys) x y.
Proof.
  intros. induction keys as [|[k d] r IH]; [reflexivity|]. cbn [le_by map lex_le fst snd]. rewrite IH.
  destruct d; [destruct (leK (field k y) (field k x)), (leK (field k x) (field k y))|destruct (leK (field k x) (field k y)), (leK (field k y) (field k x))]; reflexivity.
Qed.
Lemma sort_ext : forall A (f g : A -> A -> bool) l, (forall x y, f x y = g x y) -> sort f l = sort g l.
Proof.
  intros A f g l H. induction l as [|x l IH]; [reflexivity|]. unfold sort in *. cbn [fold_right]. rewrite IH. generalize (fold_right (insert g) [] l).
  induction l0 as [|y l0 IHl]; [reflexivity|]. cbn [insert]. rewrite H, IHl. reflexivity.
Qed.
Lemma lex_le_ext : forall A K (leK : K -> K -> bool) (k1 k2 : list ((A -> K) * bool)),
  Forall2 (fun a b => snd a = snd b /\ forall x, fst a x = fst b x) k1 k2 -> forall x y, lex_le leK k1 x y = lex_le leK k2 x y.
Proof.
  intros A K leK k1 k2 H x y. induction H as [|[f d] [g d'] r r' [E1 E2] H IH]; [reflexivity|].
  cbn [fst snd] in *. subst d'. cbn [lex_le]. rewrite !E2, IH. reflexivity.
Qed.

(** Sorting and filtering, sorting and mapping. *)
Lemma sorted_as_filter : forall A (le : A -> A -> bool) p l l', sorted_as le l l' -> sorted_as le (filter p l) (filter p l').
Proof.
  intros A le p l l' (P & S & F). split; [|split].
  - clear -P. induction P; cbn [filter]; try (destruct (p x)); try (destruct (p y)); auto; [apply perm_swap|eapply perm_trans; eassumption].
  - clear -S. induction l' as [|x l' IH]; [constructor|]. apply StronglySorted_inv in S. destruct S as [S Fx]. cbn [filter].
    destruct (p x); [|apply IH, S]. constructor; [apply IH, S|]. apply incl_Forall with (l1 := l'); [|exact Fx]. intros z I. apply filter_In in I. apply I.
  - intros x. assert (C : forall m, filter (fun y => le x y && le y x) (filter p m) = filter p (filter (fun y => le x y && le y x) m)).
    { intros m. induction m as [|z m IH]; [reflexivity|]. cbn [filter]. destruct (p z) eqn:Ep, (le x z && le z x) eqn:El; cbn [filter]; rewrite ?Ep, ?El, IH; reflexivity. }
    rewrite !C, F. reflexivity.
Qed.
Lemma sort_map : forall A B (f : A -> B) (le : B -> B -> bool) l,
  sort le (map f l) = map f (sort (fun x y => le (f x) (f y)) l).
Proof.
  intros. induction l as [|x l IH]; [reflexivity|]. unfold sort in *. cbn [map fold_right]. rewrite IH.
  generalize (fold_right (insert (fun x0 y => le (f x0) (f y))) [] l). induction l0 as [|y r IHr]; [reflexivity|].
  cbn [map insert]. destruct (le (f x) (f y)); [reflexivity|]. cbn [map]. rewrite IHr. reflexivity.
Qed.
(** Sorting by fewer keys first does not change the result. *)
Lemma sort_after_coarser : forall A (le le' : A -> A -> bool), total_preorder le -> total_preorder le' ->
  (forall x y, le x y && le y x = true -> le' x y && le' y x = true) ->
  forall l, sorted_as le l (sort le (sort le' l)).
Proof.
  intros A le le' T T' H l. pose proof (sort_sorted_as A le T (sort le' l)) as (P & S & F). split; [|split].
  - rewrite <- P. apply sort_perm.
  - exact S.
  - intros x. rewrite F.
    assert (E : forall m, filter (fun y => le x y && le y x) m = filter (fun y => le x y && le y x) (filter (fun y => le' x y && le' y x) m)).
    { intros m. induction m as [|z m IH]; [reflexivity|]. cbn [filter]. destruct (le x z && le z x) eqn:E1.
      - rewrite (H _ _ E1). cbn [filter]. rewrite E1, IH. reflexivity.
      - destruct (le' x z && le' z x); cbn [filter]; rewrite ?E1, IH; reflexivity. }
    rewrite E, (sort_stable A le' T' x), <- E. reflexivity.
Qed.
Lemma lex_equiv_sub : forall A K (leK : K -> K -> bool) (k k' : list ((A -> K) * bool)) x y, sublist k' k ->
  lex_le leK k x y && lex_le leK k y x = true -> lex_le leK k' x y && lex_le leK k' y x = true.
Proof.
  intros A K leK k k' x y S. induction S as [|[g d] k' k S IH|[g d] k' k S IH]; [auto|intros H|intros H];
    apply andb_prop in H; destruct H as [H1 H2]; cbn [lex_le] in H1, H2;
    (assert (Q : leK (g x) (g y) = true /\ leK (g y) (g x) = true /\ lex_le leK k x y = true /\ lex_le leK k y x = true)
      by (destruct d; apply andb_prop in H1, H2; destruct H1 as [A1 B1], H2 as [A2 B2]; rewrite A1, A2 in *; cbn [negb orb] in *; auto));
    destruct Q as (Q1 & Q2 & Q3 & Q4); rewrite Q3, Q4 in IH; specialize (IH eq_refl); [exact IH|].
  apply andb_prop in IH. destruct IH as [I1 I2]. cbn [lex_le]. destruct d; rewrite Q1, Q2, I1, I2; reflexivity.
Qed.
Lemma sort_filter : forall A (le : A -> A -> bool) p l, total_preorder le -> sort le (filter p l) = filter p (sort le l).
Proof.
  intros A le p l T. apply (sorted_as_unique A le T (filter p l)); [apply sort_sorted_as, T|]. apply sorted_as_filter, sort_sorted_as, T.
Qed.
Lemma sublist_sorted : forall A (R : A -> A -> Prop) a b, sublist a b -> StronglySorted R b -> StronglySorted R a.
Proof.
  intros A R a b S. induction S as [|x a b S IH|x a b S IH]; intros H; [constructor| |]; apply StronglySorted_inv in H; destruct H as [H F]; [auto|].
  constructor; [auto|]. clear -S F. induction S as [|y a b S IH|y a b S IH]; [constructor| |]; inversion F; subst; auto.
Qed.
Lemma sublist_filter : forall A p (l : list A), sublist (filter p l) l.
Proof. intros A p l. induction l as [|x l IH]; [constructor|]. cbn [filter]. destruct (p x); constructor; exact IH. Qed.

(** C21, C22: the aggregates compute what SQL says, independently of batching and of row order. *)
From Coq Require Import SpecFloat Permutation.
From Verif Require Import Base PyVal Utils_Model Calc_Model Calc_Proofs Agg_Model Agg_Spec Agg_Proofs.
Open Scope Z_scope.

(** ** What each aggregate computes (a group has at least one row) *)
Theorem count_correct : forall xs, xs <> [] ->
  run count_agg VNone xs = Ok (VInt (Z.of_nat (length (nonnull xs)))).
Proof. intros xs H. rewrite count_run. destruct xs; congruence. Qed.
Print Assumptions count_correct.

Theorem sum_correct : forall xs z, xs <> [] -> sums xs z -> run sum_agg VNone xs = Ok (VInt z).
Proof. intros xs z H S. rewrite (sum_run _ _ S). destruct xs; congruence. Qed.
Print Assumptions sum_correct.

Theorem max_correct : forall str_of xs, comparable (nonnull xs) ->
  exists m, run (max_agg str_of) VNone xs = Ok m /\ greatest_of xs m.
Proof. exact max_run. Qed.
Print Assumptions max_correct.
Theorem min_correct : forall str_of xs, comparable (nonnull xs) ->
  exists m, run (min_agg str_of) VNone xs = Ok m /\ least_of xs m.
Proof. exact min_run. Qed.
Print Assumptions min_correct.

(** COUNT(DISTINCT x) is the number of distinct non-NULL values; GROUP_UNIQ_ARRAY lists them. *)
Theorem count_distinct_correct : forall xs, (forall x, In x (nonnull xs) -> pyeq x x = true) ->
  exists st, run set_agg None xs = Ok st /\ distinct_values (nonnull xs) (uniq_final st) /\
    dcount_final st = Z.of_nat (length (uniq_final st)).
Proof.
  intros xs H. rewrite set_run. eexists. split; [reflexivity|].
  assert (D := distinct_values_union (nonnull xs) H). destruct (nonnull xs) as [|x l]; [split; auto|].
  split; auto.
Qed.
Print Assumptions count_distinct_correct.

(** AVG of integers without NULL is the (correctly rounded) quotient of the sum and the number of rows. *)
Theorem avg_correct : forall xs z, xs <> [] -> ~ In VNone xs -> sums xs z ->
  exists st, run avg_agg None xs = Ok st /\ avg_final st = py_div (VInt z) (VInt (Z.of_nat (length xs))).
Proof. intros xs z H N S. rewrite (avg_run _ _ S N). eexists. split; [reflexivity|]. destruct xs; [congruence|]. reflexivity. Qed.
Print Assumptions avg_correct.

(** GROUP_CONCAT / GROUP_ARRAY list the non-NULL values in row order. *)
Lemma concat_run_from : forall str_of xs l, run (concat_agg str_of) (Some l) xs = Ok (Some (l ++ map str_of (nonnull xs))).
Proof.
  induction xs as [|x xs IH]; intros l; cbn [run]; [cbn; rewrite app_nil_r; auto|].
  destruct x; unfold concat_agg at 1; cbn [is_none bind]; rewrite IH; cbn [nonnull filter map]; fold (nonnull xs);
    rewrite <- ?app_assoc; reflexivity.
Qed.
Lemma concat_run : forall str_of xs, run (concat_agg str_of) None xs =
  Ok (match nonnull xs with [] => None | l => Some (map str_of l) end).
Proof.
  induction xs as [|x xs IH]; [reflexivity|]. cbn [run].
  destruct x; unfold concat_agg at 1; cbn [is_none bind]; [exact IH|..]; rewrite concat_run_from; reflexivity.
Qed.
Theorem group_concat_correct : forall str_of xs, exists st, run (concat_agg str_of) None xs = Ok st /\
  comma_list (map str_of (nonnull xs)) (concat_final st).
Proof.
  intros. rewrite concat_run. eexists. split; [reflexivity|].
  assert (J : forall l, comma_list l (join_comma l)).
  { induction l as [|a [|b l] IH]; constructor. exact IH. }
  specialize (J (map str_of (nonnull xs))). destruct (nonnull xs); exact J.
Qed.
Print Assumptions group_concat_correct.

Lemma array_run_from : forall xs l, run array_agg (Some l) xs = Ok (Some (l ++ nonnull xs)).
Proof.
  induction xs as [|x xs IH]; intros l; cbn [run]; [cbn; rewrite app_nil_r; auto|].
  destruct x; unfold array_agg at 1; cbn [is_none bind]; rewrite IH; cbn [nonnull filter]; fold (nonnull xs);
    rewrite <- ?app_assoc; reflexivity.
Qed.
Lemma array_run : forall xs, run array_agg None xs = Ok (match nonnull xs with [] => None | l => Some l end).
Proof.
  induction xs as [|x xs IH]; [reflexivity|]. cbn [run].
  destruct x; unfold array_agg at 1; cbn [is_none bind]; [exact IH|..]; rewrite array_run_from; reflexivity.
Qed.
Theorem group_array_correct : forall xs, exists st, run array_agg None xs = Ok st /\ array_final st = nonnull xs.
Proof. intros. rewrite array_run. eexists. split; [reflexivity|]. destruct (nonnull xs); reflexivity. Qed.
Print Assumptions group_array_correct.

(** ** C21: batching *)
Theorem count_batch : batch_invariant (run count_agg VNone) base_reduce (fun _ => True).
Proof.
  intros xs ys _. rewrite !count_run.
  destruct xs as [|x xs]; [destruct ys; do 3 eexists; repeat split; reflexivity|].
  destruct ys as [|y ys]; [rewrite app_nil_r; do 3 eexists; repeat split; reflexivity|].
  do 3 eexists. do 3 (split; [reflexivity|]). cbn [app]. change (x :: xs ++ y :: ys) with ((x :: xs) ++ y :: ys).
  rewrite nonnull_app, app_length, Nat2Z.inj_add. reflexivity.
Qed.
Print Assumptions count_batch.

Theorem count_distinct_batch : batch_invariant (run set_agg None) set_reduce (fun _ => True).
Proof.
  intros xs ys _. rewrite !set_run, nonnull_app. 
  destruct (nonnull xs) as [|x l], (nonnull ys) as [|y m]; cbn [app set_reduce]; do 3 eexists; do 3 (split; [reflexivity|]); try reflexivity.
  - rewrite app_nil_r. reflexivity.
  - do 2 f_equal. change (x :: l ++ y :: m) with ((x :: l) ++ y :: m). rewrite union_app, union_dedup. reflexivity.
Qed.
Print Assumptions count_distinct_batch.

Theorem sum_batch : batch_invariant (run sum_agg VNone) base_reduce (fun xs => exists z, sums xs z).
Proof.
  intros xs ys [z H]. destruct (sums_app_inv _ _ _ H) as (a & b & A & B & E).
  rewrite (sum_run _ _ A), (sum_run _ _ B), (sum_run _ _ H). subst z. 
  destruct xs as [|x xs], ys as [|y ys]; cbn [app]; do 3 eexists; do 3 (split; [reflexivity|]); try reflexivity.
  - inversion A; subst. reflexivity.
  - inversion B; subst. rewrite Z.add_0_r. reflexivity.
Qed.
Print Assumptions sum_batch.

Theorem avg_batch : batch_invariant (run avg_agg None) avg_reduce
  (fun xs => ~ In VNone xs /\ exists z, sums xs z).
Proof.
  intros xs ys [N [z H]]. destruct (sums_app_inv _ _ _ H) as (a & b & A & B & E).
  assert (NA : ~ In VNone xs) by (intro K; apply N; apply in_or_app; auto).
  assert (NB : ~ In VNone ys) by (intro K; apply N; apply in_or_app; auto).
  rewrite (avg_run _ _ A NA), (avg_run _ _ B NB), (avg_run _ _ H N). subst z. 
  destruct xs as [|x xs], ys as [|y ys]; cbn [app]; do 3 eexists; do 3 (split; [reflexivity|]); try reflexivity.
  - inversion A; subst. reflexivity.
  - inversion B; subst. rewrite Z.add_0_r, app_nil_r. reflexivity.
  - do 3 f_equal. change (x :: xs ++ y :: ys) with ((x :: xs) ++ y :: ys). rewrite app_length, Nat2Z.inj_add. reflexivity.
Qed.
Print Assumptions avg_batch.

Theorem max_batch : forall str_of, batch_invariant (run (max_agg str_of) VNone) max_reduce (fun xs => comparable (nonnull xs)).
Proof. intros str_of xs ys H. apply (max_batch_L str_of (xs ++ ys) H). apply cmpD_dom. Qed.
Print Assumptions max_batch.
Theorem min_batch : forall str_of, batch_invariant (run (min_agg str_of) VNone) min_reduce (fun xs => comparable (nonnull xs)).
Proof. intros str_of xs ys H. apply (min_batch_L str_of (xs ++ ys) H). apply cmpD_dom. Qed.
Print Assumptions min_batch.

Theorem group_concat_batch : forall str_of, batch_invariant (run (concat_agg str_of) None) list_reduce (fun _ => True).
Proof.
  intros str_of xs ys _. rewrite !concat_run, nonnull_app. 
  destruct (nonnull xs) as [|x l], (nonnull ys) as [|y m]; cbn [app list_reduce]; do 3 eexists; do 3 (split; [reflexivity|]); try reflexivity.
  - rewrite app_nil_r. reflexivity.
  - cbn [map]. rewrite map_app. reflexivity.
Qed.
Print Assumptions group_concat_batch.
Theorem group_array_batch : batch_invariant (run array_agg None) list_reduce (fun _ => True).
Proof.
  intros xs ys _. rewrite !array_run, nonnull_app. 
  destruct (nonnull xs) as [|x l], (nonnull ys) as [|y m]; cbn [app list_reduce]; do 3 eexists; do 3 (split; [reflexivity|]); try reflexivity.
  rewrite app_nil_r. reflexivity.
Qed.
Print Assumptions group_array_batch.

Definition int_or_null (x : val) : Prop := x = VNone \/ exists z, x = VInt z.
Theorem group_bit_batch : forall op, In op [py_and; py_or; py_xor] ->
  batch_invariant (run (bit_agg op) VNone) (bit_reduce op) (fun xs => Forall int_or_null xs).
Proof.
  intros op I xs ys H.
  assert (E : exists zop, (forall a b, op (VInt a) (VInt b) = Ok (VInt (zop a b))) /\
              (forall a b c, zop (zop a b) c = zop a (zop b c))).
  { destruct I as [<-|[<-|[<-|[]]]]; eexists; (split; [intros; reflexivity|]); intros; symmetry.
    - apply Z.land_assoc. - apply Z.lor_assoc. - symmetry. apply Z.lxor_assoc. }
  destruct E as (zop & E & A).
  assert (G := semi_batch op (bit_agg op) (fun x => exists z, x = VInt z)). apply G.
  - intros [z K]. discriminate.
  - intros st _. reflexivity.
  - intros d [z ->]. reflexivity.
  - intros a b [x ->] [y ->]. reflexivity.
  - intros a b [x ->] [y ->]. rewrite E. eauto.
  - intros a b c x y [a' ->] [b' ->] [c' ->]. rewrite !E. intros Ex Ey.
    assert (x = VInt (zop a' b')) by congruence. assert (y = VInt (zop b' c')) by congruence. subst. rewrite !E, A. reflexivity.
  - intros x Hx. rewrite Forall_forall in H. apply H. auto.
Qed.
Print Assumptions group_bit_batch.

(** The aggregates whose result depends on the batching. *)
Definition fl (z : Z) : val := match float_of_Z z with Ok f => VFloat f | Err _ => VNone end.
(** AVG counts a NULL that is not the first value of its batch. *)
Theorem avg_batch_refuted :
  run avg_agg None [VInt 1; VNone] = Ok (Some (2, VInt 1)) /\
  (do a <- run avg_agg None [VInt 1]; do b <- run avg_agg None [VNone]; avg_reduce a b) = Ok (Some (1, VInt 1)).
Proof. split; reflexivity. Qed.
Print Assumptions avg_batch_refuted.
(** In general: each NULL after the first non-NULL value increases the divisor. *)
Theorem avg_null_counts_refuted : forall c n, avg_agg (Some (c, VInt n)) VNone = Ok (Some (c + 1, VInt n)).
Proof. reflexivity. Qed.
Print Assumptions avg_null_counts_refuted.
(** Floating-point SUM: (1 + 1e16) - 1e16 against 1 + (1e16 - 1e16). *)
Theorem sum_float_batch_refuted :
  run sum_agg VNone [fl 1; fl 10000000000000000; fl (-10000000000000000)] = Ok (VFloat (S754_zero false)) /\
  (do a <- run sum_agg VNone [fl 1]; do b <- run sum_agg VNone [fl 10000000000000000; fl (-10000000000000000)]; base_reduce a b) = Ok (fl 1).
Proof. split; vm_compute; reflexivity. Qed.
Print Assumptions sum_float_batch_refuted.
(** JSON_OBJECTAGG: an object with, for each key, the value of its last row, and no other keys. *)
Theorem json_objectagg_last : forall xs k,
  exists st, run object_agg None xs = Ok st /\
  (forall pre v post, xs = pre ++ Some (k, v) :: post -> (forall w, ~ In (Some (k, w)) post) ->
     exists m, st = Some m /\ assoc k m = Some v) /\
  ((forall w, ~ In (Some (k, w)) xs) -> match st with Some m => assoc k m = None | None => True end).
Proof.
  assert (S1 : forall k k' (v : val) m, assoc k (dict_set k' v m) = if text_eqb k k' then Some v else assoc k m).
  { induction m as [|[k0 v0] m IH]; cbn; [reflexivity|].
    destruct (text_eqb k' k0) eqn:E; cbn.
    - apply text_eqb_spec in E. subst. destruct (text_eqb k k0); reflexivity.
    - rewrite IH. destruct (text_eqb k k0) eqn:F; [|reflexivity].
      apply text_eqb_spec in F. subst. rewrite text_eqb_sym, E. reflexivity. }
  assert (T : forall xs st, exists st', run object_agg st xs = Ok st').
  { induction xs as [|[[k v]|] xs IH]; intro st; [exists st; reflexivity|..]; apply IH. }
  assert (K : forall k xs st st', run object_agg st xs = Ok st' -> (forall w, ~ In (Some (k, w)) xs) ->
     match st' with Some m => assoc k m | None => None end = match st with Some m => assoc k m | None => None end).
  { induction xs as [|[[k' v]|] xs IH]; intros st st' R N.
    - cbn [run] in R. injection R as ->. reflexivity.
    - cbn [run object_agg bind] in R. rewrite (IH _ _ R) by (intros w I'; apply (N w); right; exact I').
      rewrite S1. assert (text_eqb k k' = false) as ->.
      { apply text_eqb_neq. intros ->. apply (N v). left. reflexivity. }
      destruct st; reflexivity.
    - cbn [run object_agg bind] in R. apply (IH _ _ R). intros w I'. apply (N w). right. exact I'. }
  intros xs k. destruct (T xs None) as [st R]. exists st. split; [exact R|]. split.
  - intros pre v post -> N. rewrite run_app in R. destruct (T pre None) as [s1 R1]. rewrite R1 in R.
    cbn [bind run object_agg] in R. pose proof (K k _ _ _ R N) as E. cbn match in E. rewrite S1, text_eqb_refl in E.
    destruct st as [m|]; [|discriminate]. exists m. auto.
  - intro N. pose proof (K k _ _ _ R N) as E. destruct st; [exact E|exact I].
Qed.
Print Assumptions json_objectagg_last.

(** JSON_OBJECTAGG: merging two non-empty parts loses everything. *)
Theorem json_objectagg_batch_refuted : forall xs ys a b,
  run object_agg None xs = Ok (Some a) -> run object_agg None ys = Ok (Some b) ->
  (do x <- run object_agg None xs; do y <- run object_agg None ys; object_reduce x y) = Ok None.
Proof. intros xs ys a b -> ->. reflexivity. Qed.
Print Assumptions json_objectagg_batch_refuted.

(** ** C22: row order *)
Theorem count_permutation : forall xs ys, Permutation xs ys -> run count_agg VNone xs = run count_agg VNone ys.
Proof.
  intros xs ys H. rewrite !count_run. apply Permutation_nonnull in H as H'. rewrite (Permutation_length H').
  destruct xs, ys; auto; [apply Permutation_nil in H|apply Permutation_sym, Permutation_nil in H]; discriminate.
Qed.
Print Assumptions count_permutation.
Theorem sum_permutation : forall xs ys z, sums xs z -> Permutation xs ys -> run sum_agg VNone xs = run sum_agg VNone ys.
Proof.
  intros xs ys z S H. rewrite (sum_run _ _ S), (sum_run _ _ (sums_perm _ _ H _ S)).
  destruct xs, ys; auto; [apply Permutation_nil in H|apply Permutation_sym, Permutation_nil in H]; discriminate.
Qed.
Print Assumptions sum_permutation.
Theorem avg_permutation : forall xs ys z, sums xs z -> ~ In VNone xs -> Permutation xs ys ->
  run avg_agg None xs = run avg_agg None ys.
Proof.
  intros xs ys z S N H. assert (N' : ~ In VNone ys) by (intro K; apply N; eapply Permutation_in; [apply Permutation_sym; eauto|auto]).
  rewrite (avg_run _ _ S N), (avg_run _ _ (sums_perm _ _ H _ S) N'). rewrite (Permutation_length H).
  destruct xs, ys; auto; [apply Permutation_nil in H|apply Permutation_sym, Permutation_nil in H]; discriminate.
Qed.
Print Assumptions avg_permutation.
Theorem count_distinct_permutation : forall xs ys, (forall x, In x (nonnull xs) -> pyeq x x = true) -> Permutation xs ys ->
  exists a b, run set_agg None xs = Ok a /\ run set_agg None ys = Ok b /\ dcount_final a = dcount_final b.
Proof.
  intros xs ys H P. assert (P' := Permutation_nonnull _ _ P).
  assert (I : forall x, In x (nonnull xs) <-> In x (nonnull ys)).
  { intro x. split; apply Permutation_in; auto. apply Permutation_sym; auto. }
  destruct (count_distinct_correct xs H) as (a & Ea & Da & La).
  destruct (count_distinct_correct ys) as (b & Eb & Db & Lb); [intros x Hx; apply H; apply I; auto|].
  exists a, b. split; auto. split; auto. rewrite La, Lb. f_equal. eapply distinct_values_length; eauto.
Qed.
Print Assumptions count_distinct_permutation.
(** MAX/MIN of a reordered group are equal values (2 and 2.0 are equal). *)
Theorem max_permutation : forall str_of xs ys, comparable (nonnull xs) -> Permutation xs ys ->
  exists a b, run (max_agg str_of) VNone xs = Ok a /\ run (max_agg str_of) VNone ys = Ok b /\ pyeq a b = true.
Proof.
  intros str_of xs ys C P. assert (P' := Permutation_nonnull _ _ P).
  assert (I : forall x, In x (nonnull xs) <-> In x (nonnull ys)).
  { intro x. split; apply Permutation_in; auto. apply Permutation_sym; auto. }
  assert (C' : comparable (nonnull ys)) by (intros x y Hx Hy; apply C; apply I; auto).
  destruct (max_run str_of xs C) as (a & Ea & Ga). destruct (max_run str_of ys C') as (b & Eb & Gb).
  exists a, b. split; auto. split; auto.
  destruct Ga as [[Na ->]|[Ia Ma]], Gb as [[Nb ->]|[Ib Mb]].
  - reflexivity.
  - apply I in Ib. rewrite Na in Ib. destruct Ib.
  - apply I in Ia. rewrite Nb in Ia. destruct Ia.
  - destruct (Ma b) as (c & Ec & Nc); [apply I; auto|]. destruct (Mb a) as (d & Ed & Nd); [apply I; auto|].
    apply vle_flip in Ec as Fc. rewrite Ed in Fc. apply cmp_pyeq. rewrite Ed. destruct c, d; cbn in Fc; congruence.
Qed.
Print Assumptions max_permutation.
Theorem min_permutation : forall str_of xs ys, comparable (nonnull xs) -> Permutation xs ys ->
  exists a b, run (min_agg str_of) VNone xs = Ok a /\ run (min_agg str_of) VNone ys = Ok b /\ pyeq a b = true.
Proof.
  intros str_of xs ys C P. assert (P' := Permutation_nonnull _ _ P).
  assert (I : forall x, In x (nonnull xs) <-> In x (nonnull ys)).
  { intro x. split; apply Permutation_in; auto. apply Permutation_sym; auto. }
  assert (C' : comparable (nonnull ys)) by (intros x y Hx Hy; apply C; apply I; auto).
  destruct (min_run str_of xs C) as (a & Ea & Ga). destruct (min_run str_of ys C') as (b & Eb & Gb).
  exists a, b. split; auto. split; auto.
  destruct Ga as [[Na ->]|[Ia Ma]], Gb as [[Nb ->]|[Ib Mb]].
  - reflexivity.
  - apply I in Ib. rewrite Na in Ib. destruct Ib.
  - apply I in Ia. rewrite Nb in Ia. destruct Ia.
  - destruct (Ma b) as (c & Ec & Nc); [apply I; auto|]. destruct (Mb a) as (d & Ed & Nd); [apply I; auto|].
    apply vle_flip in Ec as Fc. rewrite Ed in Fc. apply cmp_pyeq. rewrite Ec. destruct c, d; cbn in Fc; congruence.
Qed.
Print Assumptions min_permutation.

(** AVG with NULLs depends on the order; SUM fails or not depending on where a non-numeric text is. *)
Theorem avg_order_refuted :
  (do s <- run avg_agg None [VInt 1; VNone]; avg_final s) = Ok (VFloat (ratio_float 1 2)) /\
  (do s <- run avg_agg None [VNone; VInt 1]; avg_final s) = Ok (VFloat (ratio_float 1 1)).
Proof. split; reflexivity. Qed.
Print Assumptions avg_order_refuted.
Theorem sum_text_order_refuted :
  run sum_agg VNone [VInt 1; VStr (t "abc")] = Ok (VInt 1) /\
  run sum_agg VNone [VStr (t "abc"); VInt 1] = Err ValueError.
Proof. split; vm_compute; reflexivity. Qed.
Print Assumptions sum_text_order_refuted.

(** The hypotheses are met by ordinary groups. *)
Example agg_ex :
  let g := [VInt 3; VNone; VStr (t "4"); VInt 3] in
  sums g 10 /\ run sum_agg VNone g = Ok (VInt 10) /\ run count_agg VNone g = Ok (VInt 3) /\
  (do s <- run set_agg None g; Ok (dcount_final s)) = Ok 2 /\ (forall x, In x (nonnull g) -> pyeq x x = true).
Proof.
  cbv zeta. split; [|split; [|split; [|split]]]; try (vm_compute; reflexivity).
  - change 10 with (3 + (4 + (3 + 0))). apply sums_cons; [reflexivity|]. apply sums_null. apply sums_cons; [reflexivity|].
    apply sums_cons; [reflexivity|]. constructor.
  - intros x [<-|[<-|[<-|[]]]]; reflexivity.
Qed.
Example max_ex : comparable (nonnull [VInt 3; VNone; fl 7; VInt 5]) /\
  run (max_agg (fun _ => [])) VNone [VInt 3; VNone; fl 7; VInt 5] = Ok (fl 7).
Proof. split; [|vm_compute; reflexivity]. intros x y [<-|[<-|[<-|[]]]] [<-|[<-|[<-|[]]]]; eexists; vm_compute; reflexivity. Qed.

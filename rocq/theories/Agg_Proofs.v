(** Proofs about the aggregates. *)
From Coq Require Import SpecFloat Permutation.
From Verif Require Import Base PyVal Utils_Model Calc_Model Calc_Proofs Agg_Model Agg_Spec.
Open Scope Z_scope.

Lemma run_app : forall S V (f : S -> V -> res S) xs ys st,
  run f st (xs ++ ys) = (do s <- run f st xs; run f s ys).
Proof. induction xs as [|x xs IH]; intros ys st; [reflexivity|]. cbn. destruct (f st x); cbn; auto. Qed.

Lemma nonnull_app : forall xs ys, nonnull (xs ++ ys) = nonnull xs ++ nonnull ys.
Proof. intros. apply filter_app. Qed.
Lemma nonnull_in : forall x xs, In x (nonnull xs) <-> In x xs /\ x <> VNone.
Proof. intros x xs. unfold nonnull. rewrite filter_In. destruct x; intuition congruence. Qed.
Lemma Permutation_nonnull : forall xs ys, Permutation xs ys -> Permutation (nonnull xs) (nonnull ys).
Proof.
  intros xs ys H. unfold nonnull. induction H; cbn; auto.
  - destruct x; auto.
  - destruct x, y; auto; apply perm_swap.
  - eapply Permutation_trans; eauto.
Qed.

(** ** COUNT *)
Lemma count_run_from : forall xs n, run count_agg (VInt n) xs = Ok (VInt (n + Z.of_nat (length (nonnull xs)))).
Proof.
  induction xs as [|x xs IH]; intros n; cbn [run].
  - cbn. do 2 f_equal. lia.
  - assert (E : count_agg (VInt n) x = Ok (VInt (if is_none x then n else n + 1))).
    { unfold count_agg. destruct (is_none x); [|reflexivity]. unfold or0. cbn [truthy].
      destruct (n =? 0) eqn:Z0; cbn [negb]; auto. apply Z.eqb_eq in Z0. congruence. }
    rewrite E. cbn [bind]. rewrite IH. do 2 f_equal. destruct x; cbn [is_none nonnull filter length]; fold (nonnull xs); lia.
Qed.
Lemma count_run : forall xs, run count_agg VNone xs =
  Ok (match xs with [] => VNone | _ => VInt (Z.of_nat (length (nonnull xs))) end).
Proof.
  intros [|x xs]; [reflexivity|]. cbn [run]. destruct x; cbn; rewrite count_run_from; do 2 f_equal; cbn [nonnull filter length]; fold (nonnull xs); lia.
Qed.

(** ** SUM *)
Lemma agg_number_denotes : forall v n, denotes v n -> agg_number v = Ok (VInt n).
Proof. intros v n H. unfold agg_number. destruct (is_number v) eqn:E; [|exact H]. unfold denotes in H.
  rewrite ensure_number_id in H by auto. congruence. Qed.
Lemma denotes_not_none : forall v n, denotes v n -> v <> VNone.
Proof. intros v n H K. subst. discriminate H. Qed.
Lemma sum_step_null : forall n, sum_agg (VInt n) VNone = Ok (VInt n).
Proof. intro n. unfold sum_agg. cbn. unfold or0. cbn [truthy]. destruct (n =? 0) eqn:E; cbn; auto. apply Z.eqb_eq in E. congruence. Qed.
Lemma sum_run_from : forall xs z, sums xs z -> forall n, run sum_agg (VInt n) xs = Ok (VInt (n + z)).
Proof.
  intros xs z H. induction H as [|l z H IH|v n' l z D H IH]; intros n; cbn [run].
  - rewrite Z.add_0_r. reflexivity.
  - rewrite sum_step_null. cbn [bind]. apply IH.
  - unfold sum_agg. rewrite (agg_number_denotes _ _ D). cbn [bind try_]. cbn. rewrite IH. do 2 f_equal. lia.
Qed.
Lemma sum_run : forall xs z, sums xs z -> run sum_agg VNone xs = Ok (match xs with [] => VNone | _ => VInt z end).
Proof.
  intros xs z H. inversion H as [|l z' H'|v n l z' D H']; subst; [reflexivity| |]; cbn [run].
  - cbn. apply (sum_run_from l z H' 0).
  - unfold sum_agg. rewrite (agg_number_denotes _ _ D). cbn [bind].
    change (py_add VNone (VInt n)) with (@Err val TypeError). cbn [try_].
    assert (is_none v = false) as -> by (destruct v; auto; discriminate D). cbn [is_none bind].
    apply sum_run_from. auto.
Qed.
Lemma sums_app_inv : forall xs ys z, sums (xs ++ ys) z -> exists a b, sums xs a /\ sums ys b /\ z = a + b.
Proof.
  induction xs as [|x xs IH]; intros ys z H.
  - exists 0, z. repeat split; auto. constructor.
  - cbn in H. inversion H as [|l z' H'|v n l z' D H']; subst.
    + apply IH in H' as (a & b & A & B & ->). exists a, b. repeat split; auto. constructor; auto.
    + apply IH in H' as (a & b & A & B & ->). exists (n + a), b. repeat split; auto; [|lia]. constructor; auto.
Qed.
Lemma sums_perm : forall xs ys, Permutation xs ys -> forall z, sums xs z -> sums ys z.
Proof.
  intros xs ys H. induction H as [|x l l' H IH|x y l|l l' l'' H1 IH1 H2 IH2]; intros z K; auto.
  - inversion K; subst; constructor; auto.
  - inversion K as [|? ? K'|v n ? z' D K']; subst; inversion K' as [|? ? K''|v' n' ? z'' D' K'']; subst.
    + repeat constructor; auto.
    + apply sums_cons; auto. apply sums_null; auto.
    + apply sums_null. apply sums_cons; auto.
    + replace (n + (n' + z'')) with (n' + (n + z'')) by lia. apply sums_cons; auto. apply sums_cons; auto.
Qed.

(** ** AVG over values that denote integers *)
Lemma avg_run_from : forall xs z, sums xs z -> ~ In VNone xs -> forall c n,
  run avg_agg (Some (c, VInt n)) xs = Ok (Some (c + Z.of_nat (length xs), VInt (n + z))).
Proof.
  intros xs z H. induction H as [|l z H IH|v n' l z D H IH]; intros NN c n; cbn [run].
  - rewrite !Z.add_0_r. reflexivity.
  - destruct NN. left; auto.
  - unfold avg_agg. rewrite (agg_number_denotes _ _ D). cbn [bind]. cbn.
    rewrite IH by (intro K; apply NN; right; auto). f_equal. f_equal. f_equal; [cbn [length]; lia|f_equal; lia].
Qed.
Lemma avg_run : forall xs z, sums xs z -> ~ In VNone xs ->
  run avg_agg None xs = Ok (match xs with [] => None | _ => Some (Z.of_nat (length xs), VInt z) end).
Proof.
  intros xs z H NN. inversion H as [|l z' H'|v n l z' D H']; subst; [reflexivity| |].
  - destruct NN; left; auto.
  - cbn [run]. unfold avg_agg at 1. assert (is_none v = false) as -> by (destruct v; auto; discriminate D).
    rewrite (agg_number_denotes _ _ D). cbn [bind].
    rewrite (avg_run_from l z' H') by (intro K; apply NN; right; auto). f_equal. f_equal. f_equal. cbn [length]. lia.
Qed.

(** ** Aggregates [None-skipping, then a binary operation] *)
Section Semi.
Variable op : val -> val -> res val.
Variable agg : val -> val -> res val.
Variable D : val -> Prop.
Hypothesis D_none : ~ D VNone.
Hypothesis agg_none : forall st, (st = VNone \/ D st) -> agg st VNone = Ok st.
Hypothesis agg_first : forall d, D d -> agg VNone d = Ok d.
Hypothesis agg_op : forall a b, D a -> D b -> agg a b = op a b.
Hypothesis op_closed : forall a b, D a -> D b -> exists c, op a b = Ok c /\ D c.
Hypothesis op_assoc : forall a b c x y, D a -> D b -> D c -> op a b = Ok x -> op b c = Ok y -> op x c = op a y.
Definition nred (st d : val) : res val := if is_none d then Ok st else if is_none st then Ok d else op st d.

Definition dom (xs : list val) : Prop := forall x, In x xs -> x = VNone \/ D x.

Lemma D_isnone : forall x, D x -> is_none x = false.
Proof. intros x H. destruct x; auto. destruct (D_none H). Qed.

Lemma semi_run : forall xs st, dom xs -> (st = VNone \/ D st) ->
  exists s, run agg st xs = Ok s /\ (s = VNone \/ D s).
Proof.
  induction xs as [|x xs IH]; intros st H Hs; cbn [run].
  - eauto.
  - assert (Hx : x = VNone \/ D x) by (apply H; left; auto).
    assert (H' : dom xs) by (intros z Hz; apply H; right; auto).
    assert (E : exists s, agg st x = Ok s /\ (s = VNone \/ D s)).
    { destruct Hx as [->|Hx]; [exists st; split; auto|]. destruct Hs as [->|Hs].
      - exists x. auto.
      - rewrite agg_op by auto. destruct (op_closed st x Hs Hx) as (c & E & K). exists c. auto. }
    destruct E as (s & -> & Hs'). cbn [bind]. apply IH; auto.
Qed.

Lemma semi_run_from : forall ys st b, dom ys -> D st -> run agg VNone ys = Ok b ->
  run agg st ys = nred st b.
Proof.
  induction ys as [|y ys IH] using rev_ind; intros st b Hd Hs E.
  - cbn in E. assert (b = VNone) by congruence. subst. reflexivity.
  - rewrite run_app in E. assert (Hy : y = VNone \/ D y) by (apply Hd; apply in_or_app; right; left; auto).
    assert (Hd' : dom ys) by (intros z Hz; apply Hd; apply in_or_app; auto).
    destruct (semi_run ys VNone Hd' (or_introl eq_refl)) as (b' & Eb' & Hb').
    rewrite Eb' in E. cbn [bind run] in E. rewrite run_app, (IH st b' Hd' Hs Eb').
    unfold nred at 1. destruct Hb' as [->|Hb'].
    + cbn [is_none bind run]. destruct Hy as [->|Hy].
      * rewrite agg_none in E by auto. cbn in E. rewrite agg_none by auto. cbn. assert (b = VNone) by congruence. subst. reflexivity.
      * rewrite agg_first in E by auto. cbn in E. rewrite agg_op by auto. assert (b = y) by congruence. subst. unfold nred.
        rewrite !D_isnone by auto. destruct (op st y); reflexivity.
    + rewrite !D_isnone by auto. destruct (op_closed st b' Hs Hb') as (x & Ex & Hx). rewrite Ex. cbn [bind run].
      destruct Hy as [->|Hy].
      * rewrite agg_none in E by auto. cbn in E. assert (b = b') by congruence. subst. rewrite agg_none by auto. cbn.
        unfold nred. rewrite !D_isnone by auto. auto.
      * rewrite agg_op in E by auto. destruct (op_closed b' y Hb' Hy) as (w & Ew & Hw). rewrite Ew in E. cbn in E.
        assert (b = w) by congruence. subst. rewrite agg_op by auto. unfold nred. rewrite !D_isnone by auto.
        rewrite (op_assoc st b' y x w) by auto. destruct (op st w); reflexivity.
Qed.

Lemma semi_batch : batch_invariant (run agg VNone) nred dom.
Proof.
  intros xs ys H.
  assert (Hx : dom xs) by (intros z Hz; apply H; apply in_or_app; auto).
  assert (Hy : dom ys) by (intros z Hz; apply H; apply in_or_app; auto).
  destruct (semi_run xs VNone Hx (or_introl eq_refl)) as (a & Ea & Ha).
  destruct (semi_run ys VNone Hy (or_introl eq_refl)) as (b & Eb & Hb).
  destruct (semi_run (xs ++ ys) VNone H (or_introl eq_refl)) as (c & Ec & Hc).
  exists a, b, c. repeat split; auto. rewrite run_app, Ea in Ec. cbn [bind] in Ec. destruct Ha as [->|Ha].
  - rewrite Ec in Eb. assert (b = c) by congruence. subst. unfold nred. destruct (is_none c) eqn:N; auto.
    destruct c; try discriminate; reflexivity.
  - rewrite <- (semi_run_from ys a b) by auto. exact Ec.
Qed.
End Semi.

(** ** MAX / MIN *)
Section Ext.
Variable str_of : val -> text.
(** [gt a b]: a is strictly better than b *)
Definition gtb (a b : val) : bool := match pycmp a b with Ok (Some Gt) => true | _ => false end.
Definition ltb' (a b : val) : bool := match pycmp a b with Ok (Some Lt) => true | _ => false end.

Section Gen.
Variable op : val -> val -> res bool.
Variable f : val -> val -> bool.
Variable D : val -> Prop.
Hypothesis D_none : ~ D VNone.
Hypothesis op_f : forall a b, D a -> D b -> op a b = Ok (f a b).
Hypothesis op_none : forall a b, a = VNone \/ b = VNone -> exists e, op a b = Err e.
Hypothesis f_trans : forall a b c, D a -> D b -> D c -> f a b = true -> f b c = true -> f a c = true.
Hypothesis f_neg : forall a b c, D a -> D b -> D c -> f a b = false -> f b c = false -> f a c = false.

Lemma ext_batch : batch_invariant (run (ext_agg str_of op) VNone) (ext_reduce op) (dom D).
Proof.
  assert (G := semi_batch (py_max2 op) (ext_agg str_of op) D). unfold nred in G. unfold ext_reduce. apply G; auto.
  - intros st _. unfold ext_agg, py_max2. destruct (op_none VNone st (or_introl eq_refl)) as [e ->]. reflexivity.
  - intros d Hd. unfold ext_agg, py_max2. destruct (op_none d VNone (or_intror eq_refl)) as [e ->]. cbn.
    destruct d; auto.
  - intros a b Ha Hb. unfold ext_agg, py_max2. rewrite op_f by auto. reflexivity.
  - intros a b Ha Hb. unfold py_max2. rewrite op_f by auto. cbn. destruct (f b a); eauto.
  - intros a b c x y Ha Hb Hc. unfold py_max2. rewrite !op_f by auto. cbn [bind]. intros Ex Ey.
    assert (x = if f b a then b else a) by congruence. assert (y = if f c b then c else b) by congruence. subst x y.
    destruct (f b a) eqn:BA, (f c b) eqn:CB; rewrite ?op_f by auto; cbn [bind]; rewrite ?BA, ?CB; auto.
    + rewrite (f_trans c b a) by auto. reflexivity.
    + rewrite (f_neg c b a) by auto. reflexivity.
Qed.

Hypothesis f_irrefl : forall a, D a -> f a a = false.
Lemma ext_run : forall xs st, dom D xs -> D st ->
  exists m, run (ext_agg str_of op) st xs = Ok m /\ In m (st :: nonnull xs) /\ D m /\
    forall y, In y (st :: nonnull xs) -> f y m = false.
Proof.
  induction xs as [|x xs IH]; intros st H Hs; cbn [run].
  - exists st. split; auto. split; [left; auto|]. split; auto. intros y [<-|[]]. auto.
  - assert (Hx : x = VNone \/ D x) by (apply H; left; auto).
    assert (H' : dom D xs) by (intros z Hz; apply H; right; auto).
    destruct Hx as [->|Hx].
    + assert (ext_agg str_of op st VNone = Ok st) as ->.
      { unfold ext_agg, py_max2. destruct (op_none VNone st (or_introl eq_refl)) as [e ->]. reflexivity. }
      cbn [bind]. destruct (IH st H' Hs) as (m & E & I & Dm & M). exists m. repeat split; auto.
    + assert (ext_agg str_of op st x = Ok (if f x st then x else st)) as ->.
      { unfold ext_agg, py_max2. rewrite op_f by auto. reflexivity. }
      cbn [bind]. destruct (IH (if f x st then x else st) H') as (m & E & I & Dm & M); [destruct (f x st); auto|].
      assert (N : nonnull (x :: xs) = x :: nonnull xs) by (destruct x; auto; destruct (D_none Hx)).
      rewrite N. exists m. split; auto. split; [|split; auto].
      * destruct I as [<-|I]; [destruct (f x st); cbn; auto|right; right; auto].
      * intros y [<-|[<-|I']]; [| |apply M; right; auto].
        -- destruct (f x st) eqn:F; [|apply M; left; auto].
           assert (A : f x m = false) by (apply M; left; auto).
           destruct (f st m) eqn:B; auto. rewrite (f_trans x st m) in A by auto. congruence.
        -- destruct (f x st) eqn:F; [apply M; left; auto|].
           apply (f_neg x st m); auto. apply M; left; auto.
Qed.
End Gen.

Definition cmpD (L : list val) (x : val) : Prop := In x (nonnull L).
Lemma gt_trans : forall a b c, gtb a b = true -> gtb b c = true -> gtb a c = true.
Proof.
  intros a b c H1 H2. unfold gtb in *.
  destruct (pycmp a b) as [[[]|]|] eqn:E1; try discriminate. destruct (pycmp b c) as [[[]|]|] eqn:E2; try discriminate.
  apply vle_flip in E1 as F1. apply vle_flip in E2 as F2. cbn in F1, F2.
  destruct (vle_trans c b a) as (x & Ex & Nx); [exists Lt; split; [auto|discriminate]|exists Lt; split; [auto|discriminate]|].
  apply vle_flip in Ex as Fx. rewrite Fx. destruct x; try congruence; auto.
  (* x = Eq: then a <= c <= b, contradiction with a > b *)
  destruct (vle_trans a c b) as (y & Ey & Ny); [exists Eq; split; [exact Fx|discriminate]|exists Lt; split; [auto|discriminate]|].
  congruence.
Qed.
Lemma gt_neg : forall a b c, (exists x, pycmp a b = Ok (Some x)) -> (exists x, pycmp b c = Ok (Some x)) ->
  gtb a b = false -> gtb b c = false -> gtb a c = false.
Proof.
  intros a b c [x Hx] [y Hy] H1 H2. unfold gtb in *. rewrite Hx in H1. rewrite Hy in H2.
  destruct (vle_trans a b c) as (z & Ez & Nz).
  - exists x. split; auto. destruct x; congruence.
  - exists y. split; auto. destruct y; congruence.
  - rewrite Ez. destruct z; congruence.
Qed.
Lemma lt_gt : forall a b, ltb' a b = gtb b a.
Proof. intros a b. unfold ltb', gtb. rewrite (pycmp_sym b a). destruct (pycmp b a) as [[[]|]|]; reflexivity. Qed.
Lemma pygt_gtb : forall a b c, pycmp a b = Ok (Some c) -> pygt a b = Ok (gtb a b).
Proof. intros a b c H. unfold pygt, gtb. rewrite H. reflexivity. Qed.
Lemma pylt_ltb : forall a b c, pycmp a b = Ok (Some c) -> pylt a b = Ok (ltb' a b).
Proof. intros a b c H. unfold pylt, ltb'. rewrite H. reflexivity. Qed.
Lemma pycmp_none : forall a b, a = VNone \/ b = VNone -> pycmp a b = Err TypeError.
Proof. intros a b [->| ->]; [destruct b; reflexivity|destruct a; reflexivity]. Qed.

Section L.
Variable L : list val.
Hypothesis C : comparable (nonnull L).
Lemma cmpD_none : ~ cmpD L VNone.
Proof. intro H. apply nonnull_in in H as [_ H]. congruence. Qed.
Lemma cmpD_dom : dom (cmpD L) L.
Proof. intros x H. destruct x; auto; right; apply nonnull_in; split; auto; discriminate. Qed.

Lemma max_batch_L : batch_invariant (run (max_agg str_of) VNone) max_reduce (dom (cmpD L)).
Proof.
  apply (ext_batch pygt gtb (cmpD L)).
  - apply cmpD_none.
  - intros a b Ha Hb. destruct (C a b Ha Hb) as [c E]. apply (pygt_gtb _ _ _ E).
  - intros a b H. unfold pygt. rewrite pycmp_none by auto. cbn. eauto.
  - intros a b c _ _ _. apply gt_trans.
  - intros a b c Ha Hb Hc. apply gt_neg; apply C; auto.
Qed.
Lemma min_batch_L : batch_invariant (run (min_agg str_of) VNone) min_reduce (dom (cmpD L)).
Proof.
  apply (ext_batch pylt ltb' (cmpD L)).
  - apply cmpD_none.
  - intros a b Ha Hb. destruct (C a b Ha Hb) as [c E]. apply (pylt_ltb _ _ _ E).
  - intros a b H. unfold pylt. rewrite pycmp_none by auto. cbn. eauto.
  - intros a b c _ _ _. rewrite !lt_gt. intros H1 H2. apply (gt_trans c b a); auto.
  - intros a b c Ha Hb Hc. rewrite !lt_gt. intros H1 H2. apply (gt_neg c b a); auto; apply C; auto.
Qed.
End L.

Lemma gt_irrefl : forall a, gtb a a = false.
Proof.
  intro a. unfold gtb. destruct (pycmp a a) as [[[]|]|] eqn:E; auto.
  apply vle_flip in E as F. rewrite E in F. discriminate.
Qed.

Lemma max_run : forall xs, comparable (nonnull xs) -> exists m, run (max_agg str_of) VNone xs = Ok m /\ greatest_of xs m.
Proof.
  assert (G : forall L, comparable (nonnull L) -> forall xs, dom (cmpD L) xs ->
     exists m, run (max_agg str_of) VNone xs = Ok m /\ greatest_of xs m).
  { intros L C. induction xs as [|x xs IH]; intros H.
    - exists VNone. split; auto. left. auto.
    - assert (Hx : x = VNone \/ cmpD L x) by (apply H; left; auto).
      assert (H' : dom (cmpD L) xs) by (intros z Hz; apply H; right; auto).
      cbn [run]. destruct Hx as [->|Hx].
      + change (max_agg str_of VNone VNone) with (@Ok val VNone). cbn [bind]. exact (IH H').
      + assert (E : max_agg str_of VNone x = Ok x) by (destruct x; auto).
        rewrite E. cbn [bind].
        destruct (ext_run pygt gtb (cmpD L) (cmpD_none L)) with (xs := xs) (st := x) as (m & Em & I & Dm & M); auto.
        * intros a b Ha Hb. destruct (C a b Ha Hb) as [c K]. apply (pygt_gtb _ _ _ K).
        * intros a b K. unfold pygt. rewrite pycmp_none by auto. cbn. eauto.
        * intros a b c _ _ _. apply gt_trans.
        * intros a b c Ha Hb Hc. apply gt_neg; apply C; auto.
        * intros a _. apply gt_irrefl.
        * exists m. split; [exact Em|]. right. assert (N : nonnull (x :: xs) = x :: nonnull xs).
          { apply nonnull_in in Hx as [_ Hx]. destruct x; auto; congruence. }
          rewrite N. split; auto. intros y Hy. specialize (M y Hy).
          assert (Dy : cmpD L y). { destruct Hy as [<-|Hy]; auto. apply nonnull_in in Hy as [Hy Ny]. destruct (H' y Hy); auto; congruence. }
          destruct (C y m Dy Dm) as [c K]. exists c. split; auto. unfold gtb in M. rewrite K in M. destruct c; congruence. }
  intros xs C. apply (G xs C xs). apply cmpD_dom.
Qed.
Lemma min_run : forall xs, comparable (nonnull xs) -> exists m, run (min_agg str_of) VNone xs = Ok m /\ least_of xs m.
Proof.
  assert (G : forall L, comparable (nonnull L) -> forall xs, dom (cmpD L) xs ->
     exists m, run (min_agg str_of) VNone xs = Ok m /\ least_of xs m).
  { intros L C. induction xs as [|x xs IH]; intros H.
    - exists VNone. split; auto. left. auto.
    - assert (Hx : x = VNone \/ cmpD L x) by (apply H; left; auto).
      assert (H' : dom (cmpD L) xs) by (intros z Hz; apply H; right; auto).
      cbn [run]. destruct Hx as [->|Hx].
      + change (min_agg str_of VNone VNone) with (@Ok val VNone). cbn [bind]. exact (IH H').
      + assert (E : min_agg str_of VNone x = Ok x) by (destruct x; auto).
        rewrite E. cbn [bind].
        destruct (ext_run pylt ltb' (cmpD L) (cmpD_none L)) with (xs := xs) (st := x) as (m & Em & I & Dm & M); auto.
        * intros a b Ha Hb. destruct (C a b Ha Hb) as [c K]. apply (pylt_ltb _ _ _ K).
        * intros a b K. unfold pylt. rewrite pycmp_none by auto. cbn. eauto.
        * intros a b c _ _ _. rewrite !lt_gt. intros H1 H2. apply (gt_trans c b a); auto.
        * intros a b c Ha Hb Hc. rewrite !lt_gt. intros H1 H2. apply (gt_neg c b a); auto; apply C; auto.
        * intros a _. rewrite lt_gt. apply gt_irrefl.
        * exists m. split; [exact Em|]. right. assert (N : nonnull (x :: xs) = x :: nonnull xs).
          { apply nonnull_in in Hx as [_ Hx]. destruct x; auto; congruence. }
          rewrite N. split; auto. intros y Hy. specialize (M y Hy).
          assert (Dy : cmpD L y). { destruct Hy as [<-|Hy]; auto. apply nonnull_in in Hy as [Hy Ny]. destruct (H' y Hy); auto; congruence. }
          destruct (C m y Dm Dy) as [c K]. exists c. split; auto. rewrite lt_gt in M. unfold gtb in M. rewrite K in M. destruct c; congruence. }
  intros xs C. apply (G xs C xs). apply cmpD_dom.
Qed.
End Ext.

(** ** Sets *)
Lemma pyeq_none_l : forall x, pyeq VNone x = true -> x = VNone.
Proof. destruct x; cbn; congruence. Qed.
Lemma pyeq_sym : forall a b, pyeq a b = pyeq b a.
Proof.
  intros a b. unfold pyeq. rewrite (pycmp_sym b a).
  destruct a, b; auto; destruct (pycmp _ _) as [[[]|]|]; reflexivity.
Qed.
Lemma pyeq_cmp : forall a b, a <> VNone \/ b <> VNone -> pyeq a b = true -> pycmp a b = Ok (Some Eq).
Proof.
  intros a b N H. unfold pyeq in H.
  assert (K : match pycmp a b with Ok (Some Eq) => true | _ => false end = true).
  { destruct a, b; try exact H. destruct N; congruence. }
  destruct (pycmp a b) as [[[]|]|]; congruence.
Qed.
Lemma cmp_pyeq : forall a b, pycmp a b = Ok (Some Eq) -> pyeq a b = true.
Proof. intros a b H. unfold pyeq. rewrite H. destruct a, b; reflexivity. Qed.
Lemma pyeq_trans : forall a b c, pyeq a b = true -> pyeq b c = true -> pyeq a c = true.
Proof.
  intros a b c H1 H2.
  assert (ND : forall v, v = VNone \/ v <> VNone) by (destruct v; auto; right; discriminate).
  destruct (ND b) as [->|Nb].
  - rewrite pyeq_sym in H1. apply pyeq_none_l in H1, H2. subst. reflexivity.
  - apply pyeq_cmp in H1; auto. apply pyeq_cmp in H2; auto. apply cmp_pyeq.
    destruct (vle_trans a b c) as (x & Ex & Nx); [exists Eq; split; [auto|discriminate]|exists Eq; split; [auto|discriminate]|].
    apply vle_flip in H1, H2.
    destruct (vle_trans c b a) as (y & Ey & Ny); [exists Eq; split; [auto|discriminate]|exists Eq; split; [auto|discriminate]|].
    apply vle_flip in Ey. rewrite Ex in Ey. rewrite Ex. destruct x; try congruence. destruct y; cbn in Ey; congruence.
Qed.

Lemma mem_ext : forall s x y, pyeq x y = true -> set_mem x s = set_mem y s.
Proof.
  intros s x y H. unfold set_mem. induction s as [|z s IH]; cbn; auto. rewrite IH. f_equal.
  destruct (pyeq z x) eqn:E.
  - symmetry. eapply pyeq_trans; eauto.
  - destruct (pyeq z y) eqn:F; auto. rewrite pyeq_sym in H. rewrite (pyeq_trans z y x) in E by auto. congruence.
Qed.
Lemma mem_add : forall s y x, set_mem x (set_add s y) = set_mem x s || pyeq y x.
Proof.
  intros s y x. unfold set_add. destruct (set_mem y s) eqn:E.
  - destruct (pyeq y x) eqn:F; [|rewrite orb_false_r; auto]. rewrite <- (mem_ext s y x F), E. reflexivity.
  - unfold set_mem. rewrite existsb_app. cbn. rewrite orb_false_r. reflexivity.
Qed.
Lemma mem_union : forall b a x, set_mem x (set_union a b) = set_mem x a || set_mem x b.
Proof.
  unfold set_union. induction b as [|y b IH]; intros a x; cbn [fold_left].
  - cbn. rewrite orb_false_r. reflexivity.
  - rewrite IH, mem_add. cbn. rewrite orb_assoc. reflexivity.
Qed.
Lemma union_app : forall a b c, set_union a (b ++ c) = set_union (set_union a b) c.
Proof. intros. unfold set_union. apply fold_left_app. Qed.
Lemma union_dedup : forall b a, set_union a (set_union [] b) = set_union a b.
Proof.
  intros b. induction b as [|y b IH] using rev_ind; intros a; [reflexivity|].
  assert (SN : forall a, set_union a (b ++ [y]) = set_add (set_union a b) y) by (intro; rewrite union_app; reflexivity).
  rewrite !SN. set (d := set_union [] b) in *. unfold set_add at 1. destruct (set_mem y d) eqn:E.
  - rewrite IH. unfold set_add. unfold d in E. rewrite mem_union in E. cbn [set_mem existsb orb] in E.
    rewrite mem_union, E, orb_true_r. reflexivity.
  - rewrite union_app, IH. reflexivity.
Qed.
Lemma set_run_from : forall xs s, run set_agg (Some s) xs = Ok (Some (set_union s (nonnull xs))).
Proof. induction xs as [|x xs IH]; intros s; [reflexivity|]. destruct x; cbn [run set_agg is_none bind]; rewrite IH; reflexivity. Qed.
Lemma set_run : forall xs, run set_agg None xs = Ok (match nonnull xs with [] => None | l => Some (set_union [] l) end).
Proof.
  induction xs as [|x xs IH]; [reflexivity|].
  destruct x; cbn [run set_agg is_none bind]; rewrite ?IH, ?set_run_from; reflexivity.
Qed.
Lemma union_nil_nonempty : forall x l, set_union [] (x :: l) <> [].
Proof.
  intros x l. cbn [set_union fold_left set_add set_mem existsb app].
  assert (K : forall l s, s <> [] -> set_union s l <> []).
  { unfold set_union. clear. induction l as [|y l IH]; intros s H; auto. cbn. apply IH. unfold set_add. destruct (set_mem y s); auto.
    destruct s; discriminate. }
  apply K. discriminate.
Qed.

Lemma distinct_union : forall xs s, ForallOrdPairs (fun a b => pyeq a b = false) s ->
  ForallOrdPairs (fun a b => pyeq a b = false) (set_union s xs).
Proof.
  unfold set_union. induction xs as [|x xs IH]; intros s H; auto. cbn. apply IH. unfold set_add. destruct (set_mem x s) eqn:E; auto.
  clear IH xs. induction H as [|a s F H IH]; cbn.
  - repeat constructor.
  - cbn in E. apply orb_false_iff in E as [E1 E2]. constructor; auto. apply Forall_app. auto.
Qed.
Lemma union_incl : forall xs s x, In x (set_union s xs) -> In x s \/ In x xs.
Proof.
  unfold set_union. induction xs as [|y xs IH]; intros s x H; auto. cbn in H. apply IH in H as [H|H]; [|right; right; auto].
  unfold set_add in H. destruct (set_mem y s); auto. apply in_app_or in H as [H|[<-|[]]]; auto. right; left; auto.
Qed.
Lemma distinct_values_union : forall xs, (forall x, In x xs -> pyeq x x = true) -> distinct_values xs (set_union [] xs).
Proof.
  intros xs H. split; [apply distinct_union; constructor|]. split.
  - intros r Hr. apply union_incl in Hr as [[]|Hr]; auto.
  - intros x Hx. assert (K : set_mem x (set_union [] xs) = true).
    { rewrite mem_union. cbn. unfold set_mem. apply existsb_exists. exists x. auto. }
    unfold set_mem in K. apply existsb_exists in K as (r & Hr & E). exists r. auto.
Qed.

Lemma covered_length : forall l1 l2, ForallOrdPairs (fun a b => pyeq a b = false) l1 ->
  (forall x, In x l1 -> exists r, In r l2 /\ pyeq r x = true) -> (length l1 <= length l2)%nat.
Proof.
  induction l1 as [|x l1 IH]; intros l2 H C; [cbn; lia|]. inversion H as [|? ? F H']; subst.
  destruct (C x (or_introl eq_refl)) as (r & Hr & E). apply in_split in Hr as (p & q & ->).
  assert (K : (length l1 <= length (p ++ q))%nat).
  { apply IH; auto. intros y Hy. destruct (C y (or_intror Hy)) as (r' & Hr' & E').
    apply in_app_or in Hr'. exists r'. split; auto. apply in_or_app. destruct Hr' as [Hr'|[<-|Hr']]; auto.
    rewrite Forall_forall in F. specialize (F y Hy). rewrite pyeq_sym in E. rewrite (pyeq_trans x r y) in F by auto. discriminate. }
  rewrite app_length in *. cbn. lia.
Qed.
Lemma distinct_values_length : forall xs ys r1 r2, (forall x, In x xs <-> In x ys) ->
  distinct_values xs r1 -> distinct_values ys r2 -> length r1 = length r2.
Proof.
  intros xs ys r1 r2 E (A1 & A2 & A3) (B1 & B2 & B3). apply Nat.le_antisymm; apply covered_length; auto.
  - intros x Hx. apply B3. apply E. auto.
  - intros x Hx. apply A3. apply E. auto.
Qed.

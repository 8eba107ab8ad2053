(** Proofs about the string functions. *)
From Coq Require Import SpecFloat.
From Verif Require Import Base PyVal Utils_Model Calc_Model Str_Model Str_Spec.
Open Scope Z_scope.

Lemma nth_firstn : forall A (l : list A) k i, nth_error (firstn k l) i = if (i <? k)%nat then nth_error l i else None.
Proof.
  intros A. induction l as [|x l IH]; intros k i.
  - rewrite firstn_nil. destruct i; destruct (_ <? _)%nat; reflexivity.
  - destruct k as [|k]; [destruct i; reflexivity|]. destruct i as [|i]; [reflexivity|].
    cbn [firstn nth_error]. rewrite IH. reflexivity.
Qed.
Lemma nth_error_nil : forall A i, @nth_error A [] i = None.
Proof. intros A [|i]; reflexivity. Qed.
Lemma nth_skipn : forall A (l : list A) k i, nth_error (skipn k l) i = nth_error l (k + i).
Proof.
  intros A. induction l as [|x l IH]; intros k i.
  - rewrite skipn_nil, !nth_error_nil. reflexivity.
  - destruct k as [|k]; [reflexivity|]. cbn [skipn plus nth_error]. apply IH.
Qed.
Lemma list_nth_ext : forall A (a b : list A), (forall i, nth_error a i = nth_error b i) -> a = b.
Proof.
  intros A. induction a as [|x a IH]; intros [|y b] H; auto.
  - specialize (H 0%nat). discriminate.
  - specialize (H 0%nat). discriminate.
  - assert (H0 := H 0%nat). cbn in H0. injection H0 as ->. f_equal. apply IH. intro i. apply (H (S i)).
Qed.
Lemma nth_beyond : forall A (l : list A) i, (length l <= i)%nat -> nth_error l i = None.
Proof. intros. apply nth_error_None. auto. Qed.

(** a slice with non-negative bounds, position by position *)
Lemma slice_nth : forall (s : text) a b, 0 <= a -> a <= b -> forall i,
  nth_error (pyslice s (Some a) (Some b)) i =
  if (a + Z.of_nat i <? b) then nth_error s (Z.to_nat (a + Z.of_nat i)) else None.
Proof.
  intros s a b Ha Hb i. unfold pyslice, clampidx.
  replace (a <? 0) with false by (symmetry; apply Z.ltb_ge; lia).
  replace (b <? 0) with false by (symmetry; apply Z.ltb_ge; lia).
  rewrite nth_firstn, nth_skipn.
  set (L := length s).
  destruct (a + Z.of_nat i <? b) eqn:E; [apply Z.ltb_lt in E|apply Z.ltb_ge in E].
  - destruct (i <? _)%nat eqn:F; [apply Nat.ltb_lt in F|apply Nat.ltb_ge in F].
    + f_equal. lia.
    + symmetry. apply nth_beyond. fold L. lia.
  - destruct (i <? _)%nat eqn:F; [apply Nat.ltb_lt in F|reflexivity]. exfalso. lia.
Qed.
Lemma slice_from_nth : forall (s : text) a, 0 <= a -> forall i,
  nth_error (pyslice s (Some a) None) i = nth_error s (Z.to_nat (a + Z.of_nat i)).
Proof.
  intros s a Ha i. unfold pyslice, clampidx.
  replace (a <? 0) with false by (symmetry; apply Z.ltb_ge; lia).
  rewrite nth_firstn, nth_skipn. set (L := length s).
  destruct (i <? _)%nat eqn:F; [apply Nat.ltb_lt in F|apply Nat.ltb_ge in F].
  - f_equal. lia.
  - symmetry. apply nth_beyond. fold L. lia.
Qed.

(** ** split *)
Lemma prefixb_spec : forall p s, prefixb p s = true <-> exists r, s = p ++ r.
Proof.
  induction p as [|x p IH]; intros s; cbn.
  - split; eauto.
  - destruct s as [|y s]; [split; [discriminate|intros [r K]; discriminate]|].
    rewrite andb_true_iff, IH, N.eqb_eq. split.
    + intros [-> [r ->]]. eauto.
    + intros [r K]. injection K as -> ->. eauto.
Qed.

Lemma split_go_skip : forall d p r cur, split_go d (length p) cur (p ++ r) = split_go d 0 cur r.
Proof.
  intros d. induction p as [|c p IH]; intros r cur; [reflexivity|]. cbn [length app split_go]. apply IH.
Qed.

Lemma occurs_shift : forall d c s i, occurs_at d (c :: s) (S i) <-> occurs_at d s i.
Proof.
  intros d c s i. split; intros (p & r & E & L).
  - destruct p as [|x p]; [discriminate|]. injection E as -> E. exists p, r. cbn in L. split; auto.
  - exists (c :: p), r. subst. split; auto.
Qed.
Lemma occurs_zero : forall d s, occurs_at d s 0 <-> prefixb d s = true.
Proof.
  intros d s. rewrite prefixb_spec. split.
  - intros (p & r & E & L). destruct p; [|discriminate]. exists r. exact E.
  - intros [r ->]. exists [], r. auto.
Qed.

Lemma occurs_app : forall d a s i, occurs_at d (a ++ s) (length a + i) <-> occurs_at d s i.
Proof.
  intros d. induction a as [|c a IH]; intros s i; [reflexivity|].
  cbn [app length plus]. rewrite occurs_shift. apply IH.
Qed.

Lemma split_go_cut : forall d, d <> [] -> forall n s cur, (length s <= n)%nat ->
  (forall i, (i < length cur)%nat -> ~ occurs_at d (rev cur ++ s) i) ->
  cut d (rev cur ++ s) (split_go d 0 cur s).
Proof.
  intros d Hd. induction n as [|n IH]; intros s cur L H.
  - destruct s; [|cbn in L; lia]. cbn [split_go]. rewrite app_nil_r in *. apply cut_none.
    intros i K. destruct (Nat.lt_ge_cases i (length cur)) as [Q|Q]; [apply (H i Q K)|].
    destruct K as (p & r & E & Lp).
    apply (f_equal (@length N)) in E. rewrite rev_length, !app_length in E.
    destruct d; [congruence|]. cbn in E. lia.
  - destruct s as [|c s].
    + apply (IH [] cur); [cbn; lia|exact H].
    + cbn [split_go]. destruct (prefixb d (c :: s)) eqn:P.
      * apply prefixb_spec in P as [r E]. rewrite E.
        assert (Q : split_go d (length d - 1) [] s = split_go d 0 [] r).
        { destruct d as [|x d]; [congruence|]. injection E as -> ->. cbn [length]. rewrite Nat.sub_succ, Nat.sub_0_r.
          apply split_go_skip. }
        rewrite Q. apply cut_some.
        -- intros i K. rewrite rev_length in K. rewrite <- E. apply H. exact K.
        -- apply (IH r []).
           ++ destruct d as [|x d]; [congruence|]. apply (f_equal (@length N)) in E. cbn [app length] in E. rewrite app_length in E. cbn [length] in L. lia.
           ++ intros i K. cbn in K. lia.
      * replace (rev cur ++ c :: s) with (rev (c :: cur) ++ s) by (cbn [rev]; rewrite <- app_assoc; reflexivity).
        apply IH; [cbn in L; lia|].
        intros i K. cbn [rev]. rewrite <- app_assoc. cbn [app].
        destruct (Nat.eq_dec i (length cur)) as [->|Ne].
        -- replace (length cur) with (length (rev cur) + 0)%nat by (rewrite rev_length; lia).
           rewrite occurs_app, occurs_zero. congruence.
        -- apply H. cbn [length] in K. lia.
Qed.

Lemma py_split_cut : forall s d, d <> [] -> exists l, py_split s d = Ok l /\ cut d s l.
Proof.
  intros s d Hd. unfold py_split. destruct d as [|x d0] eqn:E; [congruence|]. rewrite <- E in *.
  exists (split_go d 0 [] s). split; [reflexivity|].
  apply (split_go_cut d Hd (length s) s []); auto. intros i K. cbn in K. lia.
Qed.

(** the cut is unique *)
Lemma cut_unique : forall d s l1, d <> [] -> cut d s l1 -> forall l2, cut d s l2 -> l1 = l2.
Proof.
  intros d s l1 Hd H. induction H as [s Hs|p r ps Hp H IH]; intros l2 H2.
  - inversion H2 as [|p r ps Hp H3]; subst; auto.
    elim (Hs (length p)). exists p, r. auto.
  - remember (p ++ d ++ r) as s0 eqn:Es. destruct H2 as [s0 Hs|p' r' ps' Hp' H3].
    + subst. elim (Hs (length p)). exists p, r. auto.
    + assert (L : length p = length p').
      { destruct (Nat.lt_trichotomy (length p) (length p')) as [K|[K|K]]; auto.
        - elim (Hp' (length p) K). rewrite Es. exists p, r. auto.
        - elim (Hp (length p') K). exists p', r'. auto. }
      assert (p' = p).
      { assert (F : forall x y : text, firstn (length x) (x ++ y) = x).
        { intros x y. rewrite firstn_app, Nat.sub_diag, firstn_all. cbn. apply app_nil_r. }
        rewrite <- (F p' (d ++ r')), Es, <- L. apply F. }
      subst p'. apply app_inv_head in Es. apply app_inv_head in Es. subst r'. f_equal. apply IH. exact H3.
Qed.

Lemma join_glue : forall d l, join d l = glue d l.
Proof.
  intros d. induction l as [|a l IH]; [reflexivity|]. cbn [join glue]. destruct l as [|b l]; [rewrite app_nil_r; reflexivity|].
  rewrite IH. reflexivity.
Qed.
Lemma cut_glue : forall d s l, cut d s l -> glue d l = s.
Proof.
  intros d s l H. induction H as [s Hs|p r ps Hp H IH].
  - cbn. apply app_nil_r.
  - cbn [glue]. destruct ps as [|q ps]; [inversion H|]. rewrite IH. reflexivity.
Qed.

(** ** index *)
Lemma index_of_spec : forall x l k,
  match index_of x l k with
  | Some j => exists i v, j = k + Z.of_nat i /\ nth_error l i = Some v /\ pyeq v x = true /\
               forall j' y, (j' < i)%nat -> nth_error l j' = Some y -> pyeq y x = false
  | None => forall v, In v l -> pyeq v x = false
  end.
Proof.
  intros x. induction l as [|v l IH]; intros k; cbn [index_of].
  - intros v [].
  - destruct (pyeq v x) eqn:E.
    + exists 0%nat, v. split; [lia|]. split; [reflexivity|]. split; auto. intros; lia.
    + specialize (IH (k + 1)). destruct (index_of x l (k + 1)) as [j|].
      * destruct IH as (i & w & H1 & H2 & H3 & H4). exists (S i), w. split; [lia|]. split; auto. split; auto.
        intros [|j'] y Hj Hy; [cbn in Hy; congruence|]. apply (H4 j' y); auto; lia.
      * intros w [<-|Hw]; auto.
Qed.

Lemma index_first : forall x l,
  first_position (fun v => pyeq v x = true) l (match index_of x l 0 with Some i => i + 1 | None => 0 end).
Proof.
  intros x l. assert (H := index_of_spec x l 0). destruct (index_of x l 0) as [j|].
  - right. destruct H as (i & v & -> & H2 & H3 & H4). exists i, v. split; [lia|]. split; auto. split; auto.
    intros j y Hj Hy. rewrite (H4 j y Hj Hy). discriminate.
  - left. split; auto. intros v Hv. rewrite (H v Hv). discriminate.
Qed.

Lemma infixb_spec : forall p s, infixb p s = true <-> exists a b, s = a ++ p ++ b.
Proof.
  intros p. induction s as [|c s IH]; cbn [infixb].
  - rewrite orb_false_r, prefixb_spec. split.
    + intros [r E]. exists [], r. exact E.
    + intros (a & b & E). symmetry in E. apply app_eq_nil in E as [_ E]. exists b. auto.
  - rewrite orb_true_iff, prefixb_spec, IH. split.
    + intros [[r E]|(a & b & E)]; [exists [], r; exact E|exists (c :: a), b; cbn; congruence].
    + intros ([|x a] & b & E); [left; exists b; exact E|]. injection E as _ E. right. eauto.
Qed.
Lemma skipn_skipn : forall A (l : list A) a b, skipn a (skipn b l) = skipn (a + b) l.
Proof.
  intros A l a b. apply list_nth_ext. intro i. rewrite !nth_skipn. f_equal. lia.
Qed.

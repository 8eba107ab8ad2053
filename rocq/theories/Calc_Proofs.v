(** Proofs about comparison and arithmetic functions. *)
From Coq Require Import SpecFloat.
From Verif Require Import Base PyVal Utils_Model Calc_Model.
Open Scope Z_scope.

(** ** the order on numbers *)
Lemma cmp_scale : forall a b k, 0 < k -> Z.compare (a * k) (b * k) = Z.compare a b.
Proof. intros. rewrite Z.mul_comm, (Z.mul_comm b). symmetry. apply Zmult_compare_compat_l. lia. Qed.

Lemma ncmp_fin : forall m e m' e' k, k <= e -> k <= e' ->
  ncmp (Fin m e) (Fin m' e') = Some (Z.compare (m * 2 ^ (e - k)) (m' * 2 ^ (e' - k))).
Proof.
  intros m e m' e' k H1 H2. cbn [ncmp]. f_equal.
  set (j := Z.min e e').
  assert (J : k <= j /\ j <= e /\ j <= e') by (unfold j; lia).
  replace (e - k) with ((e - j) + (j - k)) by ring. replace (e' - k) with ((e' - j) + (j - k)) by ring.
  rewrite !Z.pow_add_r by lia. rewrite !Z.mul_assoc. symmetry. apply cmp_scale.
  apply Z.pow_pos_nonneg; lia.
Qed.

Lemma ncmp_sym : forall a b, ncmp b a = option_map CompOpp (ncmp a b).
Proof.
  intros [m e| | |] [m' e'| | |]; try reflexivity. cbn [ncmp option_map].
  rewrite Z.min_comm. f_equal. apply Z.compare_antisym.
Qed.

Lemma ncmp_refl : forall a, a <> Nan -> ncmp a a = Some Eq.
Proof. intros [m e| | |] H; try reflexivity; try congruence. cbn. rewrite Z.compare_refl. reflexivity. Qed.

(** a <= b and b <= c give a <= c, etc., by exact values *)
Definition nle (a b : num) : Prop := ncmp a b = Some Lt \/ ncmp a b = Some Eq.
Lemma nle_trans : forall a b c, nle a b -> nle b c -> nle a c.
Proof.
  unfold nle. intros [m e| | |] [m' e'| | |] [m'' e''| | |] H1 H2; try (cbn in *; intuition congruence).
  set (k := Z.min e (Z.min e' e'')).
  rewrite (ncmp_fin m e m' e' k) in H1 by (unfold k; lia).
  rewrite (ncmp_fin m' e' m'' e'' k) in H2 by (unfold k; lia).
  rewrite (ncmp_fin m e m'' e'' k) by (unfold k; lia).
  set (x := m * 2 ^ (e - k)) in *. set (y := m' * 2 ^ (e' - k)) in *. set (z := m'' * 2 ^ (e'' - k)) in *.
  clearbody x y z.
  assert (x <= y) by (destruct H1 as [H1|H1]; injection H1 as H1; [change (x < y) in H1; lia|apply Z.compare_eq in H1; lia]).
  assert (y <= z) by (destruct H2 as [H2|H2]; injection H2 as H2; [change (y < z) in H2; lia|apply Z.compare_eq in H2; lia]).
  destruct (Z.compare x z) eqn:E; auto. change (x > z) in E. lia.
Qed.

Lemma tcmp_sym : forall a b, tcmp b a = CompOpp (tcmp a b).
Proof.
  induction a as [|x a IH]; destruct b as [|y b]; try reflexivity. cbn.
  rewrite (N.compare_antisym x y). destruct (N.compare x y); cbn; auto.
Qed.
Lemma zcmp_sym : forall a b, zcmp b a = CompOpp (zcmp a b).
Proof.
  induction a as [|x a IH]; destruct b as [|y b]; try reflexivity. cbn.
  rewrite (Z.compare_antisym x y). destruct (Z.compare x y); cbn; auto.
Qed.
Lemma tcmp_eq : forall a b, tcmp a b = Eq <-> a = b.
Proof.
  induction a as [|x a IH]; destruct b as [|y b]; cbn; try (split; congruence).
  destruct (N.compare x y) eqn:E.
  - apply N.compare_eq in E. subst. rewrite IH. split; congruence.
  - split; [discriminate|]. intro K. injection K as K _. subst. rewrite N.compare_refl in E. discriminate.
  - split; [discriminate|]. intro K. injection K as K _. subst. rewrite N.compare_refl in E. discriminate.
Qed.

Definition opp_res (r : res (option comparison)) := do c <- r; Ok (option_map CompOpp c).
Lemma pycmp_sym : forall a b, pycmp b a = opp_res (pycmp a b).
Proof.
  intros a b. unfold pycmp.
  destruct a, b; cbn [num_of opp_res bind]; try reflexivity; try (rewrite ncmp_sym; reflexivity);
  cbn [option_map opp_res bind]; try (rewrite tcmp_sym; reflexivity); rewrite zcmp_sym; reflexivity.
Qed.

(** ** comparison functions *)
Definition truth (v : val) : bool := match v with VInt 1 => true | _ => false end.

Section L.
Variable frepr : spec_float -> text.
Notation eq' := (mysql_eq frepr). Notation neq' := (mysql_neq frepr).

Lemma ensure_str_total : forall v, v <> VNone -> exists s, ensure_str frepr v = Ok (VStr s).
Proof.
  intros v H. destruct v as [|[]|z|f| | | |]; cbn; try congruence; eauto.
  - destruct (z =? 0); cbn; eauto.
  - destruct f; cbn; eauto.
Qed.

(** what is compared: the coerced pair, or nothing when an operand is NULL *)
Definition coerced (a b : val) : option (val * val) :=
  if is_none a || is_none b then None
  else if same_class a b then Some (a, b)
  else if is_number a then
    if is_number b then Some (a, b)
    else match ensure_number b with Ok y => Some (a, y) | Err _ => Some (a, b) end
  else if is_str a then
    match ensure_str frepr b with Ok y => Some (a, y) | Err _ => Some (a, b) end
  else Some (a, b).

Lemma ensure_number_id : forall a, is_number a = true -> ensure_number a = Ok a.
Proof. destruct a; cbn; congruence. Qed.

Lemma equ_coerced : forall ne a b,
  mysql_equ frepr ne a b =
  match coerced a b with None => Ok VNone | Some (x, y) => Ok (b2v (xorb ne (pyeq x y))) end.
Proof.
  intros ne a b. unfold mysql_equ, coerced. cbv zeta.
  destruct (same_class a b) eqn:Sc.
  - destruct (is_none a) eqn:Na; cbn [orb].
    + reflexivity.
    + destruct (is_none b) eqn:Nb; [destruct b; try discriminate; destruct a; discriminate|reflexivity].
  - destruct (is_none a || is_none b) eqn:N; [reflexivity|].
    destruct (is_number a) eqn:Ma.
    + destruct (is_number b) eqn:Mb; [reflexivity|].
      rewrite (ensure_number_id a Ma). cbn [bind].
      destruct (ensure_number b); reflexivity.
    + destruct (is_str a) eqn:Sa; [|reflexivity].
      destruct (is_str b) eqn:Sb; [destruct a, b; discriminate|].
      destruct a; try discriminate. cbn [ensure_str bind].
      destruct (ensure_str_total b) as [x E].
      { destruct b; try discriminate; cbn in N; congruence. }
      rewrite E. reflexivity.
Qed.

Definition op_res (op : val -> val -> res bool) (x y : val) : res val := do r <- op x y; Ok (b2v r).

(** The order operators only see the comparison outcome. *)
Definition cmp_op (f : option comparison -> bool) (a b : val) : res bool :=
  do c <- pycmp a b; Ok (f c).

Lemma ord_coerced : forall f a b,
  mysql_ord frepr (cmp_op f) a b =
  match coerced a b with None => Ok VNone | Some (x, y) => op_res (cmp_op f) x y end.
Proof.
  intros f a b. unfold mysql_ord, coerced, op_res. cbv zeta.
  destruct (same_class a b) eqn:Sc.
  - destruct (is_none a) eqn:Na; cbn [orb]; [reflexivity|].
    assert (Nb : is_none b = false) by (destruct b, a; cbn in *; congruence).
    rewrite Nb.
    assert (Q : exists c, pycmp a b = Ok c).
    { destruct a, b; cbn in Sc, Na; try congruence; cbn; eauto. }
    destruct Q as [c Q]. unfold cmp_op. rewrite Q. reflexivity.
  - destruct (is_none a || is_none b) eqn:N; [reflexivity|].
    destruct (is_number a) eqn:Ma.
    + destruct (is_number b) eqn:Mb; [reflexivity|].
      rewrite (ensure_number_id a Ma). cbn [bind].
      destruct (ensure_number b) as [y|e] eqn:E; [|reflexivity].
      cbn [bind]. assert (Hy : is_number y = true).
      { destruct b as [| | | |s| | |]; try discriminate; cbn [ensure_number truthy negb] in E.
        - destruct s as [|c s]; cbn [truthy negb] in E; [injection E as <-; reflexivity|].
          assert (P : forall x isf r, parse_number x isf = Ok r -> is_number r = true).
          { intros x isf r. unfold parse_number. destruct (pn_loop x isf 0 (-1) (-1)) as [i d].
            destruct (i <? 0); destruct isf; try destruct (d >? 0);
            unfold bind; repeat match goal with |- context [match ?q with _ => _ end] => destruct q end;
            intro K; try discriminate; injection K as <-; reflexivity. }
          assert (Ef : forall r, ensure_float (VStr (c :: s)) = Ok r -> is_number r = true).
          { intros r. cbn [ensure_float truthy negb]. destruct (float_of_text (c :: s)); cbn [bind try_]; [|apply P].
            intro K; injection K as <-; reflexivity. }
          assert (Ei : forall r, ensure_int (VStr (c :: s)) = Ok r -> is_number r = true).
          { intros r. cbn [ensure_int truthy negb]. destruct (int_of_text (c :: s)); cbn [bind try_]; [|apply P].
            intro K; injection K as <-; reflexivity. }
          destruct (has_dot (c :: s)) eqn:Hd.
          + destruct (float_of_text (c :: s)); cbn [bind try_] in E; [injection E as <-; reflexivity|].
            apply Ef. exact E.
          + destruct (int_of_text (c :: s)); cbn [bind try_] in E; [injection E as <-; reflexivity|].
            apply Ei. exact E.
        - injection E as <-; reflexivity.
        - injection E as <-; reflexivity.
        - injection E as <-; reflexivity. }
      assert (Q : exists c, pycmp a y = Ok c).
      { destruct a, y; try discriminate; cbn; eauto. }
      destruct Q as [c Q]. unfold cmp_op. rewrite Q. reflexivity.
    + destruct (is_str a) eqn:Sa; [|reflexivity].
      destruct (is_str b) eqn:Sb; [destruct a, b; discriminate|].
      destruct a; try discriminate. cbn [ensure_str bind].
      destruct (ensure_str_total b) as [x E].
      { destruct b; try discriminate; cbn in N; congruence. }
      rewrite E. reflexivity.
Qed.

Lemma sql2_eq : forall f a b, sql2 f a b = guarded (f a b).
Proof. reflexivity. Qed.

Lemma eq_never_fails : forall a b, exists v, mysql_eq frepr a b = Ok v.
Proof. intros. unfold mysql_eq. rewrite equ_coerced. destruct (coerced a b) as [[x y]|]; eauto. Qed.
End L.

(** ** max / min *)
Lemma tcmp_trans : forall a b c r, tcmp a b <> Gt -> tcmp b c <> Gt -> tcmp a c = r -> r <> Gt.
Proof.
  induction a as [|x a IH]; intros [|y b] [|z c] r H1 H2 <-; cbn in *; try congruence.
  destruct (N.compare x y) eqn:E1; destruct (N.compare y z) eqn:E2; try congruence.
  - apply N.compare_eq in E1, E2. subst. rewrite N.compare_refl. eapply IH; eauto.
  - apply N.compare_eq in E1. subst. rewrite E2. congruence.
  - apply N.compare_eq in E2. subst. rewrite E1. congruence.
  - assert (x < z)%N by (change (x < y)%N in E1; change (y < z)%N in E2; lia).
    apply N.compare_lt_iff in H. rewrite H. congruence.
Qed.
Lemma zcmp_trans : forall a b c r, zcmp a b <> Gt -> zcmp b c <> Gt -> zcmp a c = r -> r <> Gt.
Proof.
  induction a as [|x a IH]; intros [|y b] [|z c] r H1 H2 <-; cbn in *; try congruence.
  destruct (Z.compare x y) eqn:E1; destruct (Z.compare y z) eqn:E2; try congruence.
  - apply Z.compare_eq in E1, E2. subst. rewrite Z.compare_refl. eapply IH; eauto.
  - apply Z.compare_eq in E1. subst. rewrite E2. congruence.
  - apply Z.compare_eq in E2. subst. rewrite E1. congruence.
  - assert (x < z) by (change (x < y) in E1; change (y < z) in E2; lia).
    change ((x ?= z) = Lt) in H. rewrite H. congruence.
Qed.

Lemma Ok_inj : forall A (a b : A), Ok a = Ok b -> a = b.
Proof. congruence. Qed.
Lemma Some_inj : forall A (a b : A), Some a = Some b -> a = b.
Proof. congruence. Qed.
(** [a <= b] in the sense of pycmp *)
Definition vle (a b : val) : Prop := exists c, pycmp a b = Ok (Some c) /\ c <> Gt.
Lemma vle_trans : forall a b c, vle a b -> vle b c -> vle a c.
Proof.
  unfold vle. intros a b c (x & Hx & Nx) (y & Hy & Ny). revert Hx Hy. unfold pycmp.
  assert (F : forall n1 n2 n3, ncmp n1 n2 = Some x -> ncmp n2 n3 = Some y -> exists z, ncmp n1 n3 = Some z /\ z <> Gt).
  { intros n1 n2 n3 H1 H2. destruct (nle_trans n1 n2 n3) as [H|H].
    - unfold nle. rewrite H1. destruct x; auto; congruence.
    - unfold nle. rewrite H2. destruct y; auto; congruence.
    - exists Lt. split; auto; congruence.
    - exists Eq. split; auto; congruence. }
  destruct a, b; cbn [num_of]; try discriminate; destruct c; cbn [num_of]; try discriminate; intros Hx Hy;
    apply Ok_inj in Hx; apply Ok_inj in Hy;
    try (destruct (F _ _ _ Hx Hy) as (w & Hw & Nw); rewrite Hw; eexists; split; [reflexivity|exact Nw]; fail).
  all: apply Some_inj in Hx; apply Some_inj in Hy; eexists; split; [reflexivity|].
  all: first [eapply tcmp_trans; [rewrite Hx; exact Nx|rewrite Hy; exact Ny|reflexivity]
             |eapply zcmp_trans; [rewrite Hx; exact Nx|rewrite Hy; exact Ny|reflexivity]].
Qed.

Lemma vle_flip : forall a b c, pycmp a b = Ok (Some c) -> pycmp b a = Ok (Some (CompOpp c)).
Proof. intros a b c H. rewrite pycmp_sym, H. reflexivity. Qed.

(** the running maximum of pairwise comparable values *)
Lemma best_gt : forall l cur,
  (forall x y, In x (cur :: l) -> In y (cur :: l) -> exists c, pycmp x y = Ok (Some c)) ->
  exists r, best pygt cur l = Ok r /\ In r (cur :: l) /\ forall y, In y (cur :: l) -> vle y r.
Proof.
  induction l as [|v l IH]; intros cur H.
  - exists cur. split; [reflexivity|]. split; [left; auto|]. intros y [<-|[]].
    destruct (H cur cur) as [c Hc]; try (left; auto). exists c. split; auto.
    assert (F := vle_flip _ _ _ Hc). rewrite Hc in F. injection F as F. destruct c; discriminate F || congruence.
  - cbn [best]. unfold pygt at 1. destruct (H v cur) as [c Hc]; [right; left; auto|left; auto|].
    rewrite Hc. cbn [bind].
    set (nx := if match Some c with Some Gt => true | _ => false end then v else cur).
    destruct (IH nx) as (r & Hr & Ir & Mr).
    { intros x y Hx Hy. apply H.
      - destruct Hx as [<-|Hx]; [unfold nx; destruct c; cbn; auto|right; right; auto].
      - destruct Hy as [<-|Hy]; [unfold nx; destruct c; cbn; auto|right; right; auto]. }
    exists r. split; [exact Hr|]. split.
    + destruct Ir as [<-|Ir]; [unfold nx; destruct c; cbn; auto|right; right; auto].
    + assert (Mn : vle nx r) by (apply Mr; left; auto).
      intros y [<-|[<-|Hy]].
      * apply vle_trans with nx; auto. unfold nx. destruct c.
        -- destruct (H cur cur) as [d Hd]; try (left; auto). exists d. split; auto.
           assert (F := vle_flip _ _ _ Hd). rewrite Hd in F. injection F as F. destruct d; discriminate F || congruence.
        -- destruct (H cur cur) as [d Hd]; try (left; auto). exists d. split; auto.
           assert (F := vle_flip _ _ _ Hd). rewrite Hd in F. injection F as F. destruct d; discriminate F || congruence.
        -- exists Lt. split; [|congruence]. apply (vle_flip _ _ _ Hc).
      * apply vle_trans with nx; auto. unfold nx. destruct c.
        -- exists Eq. split; [exact Hc|congruence].
        -- exists Lt. split; [exact Hc|congruence].
        -- destruct (H v v) as [d Hd]; try (right; left; auto). exists d. split; auto.
           assert (F := vle_flip _ _ _ Hd). rewrite Hd in F. injection F as F. destruct d; discriminate F || congruence.
      * apply Mr. right; auto.
Qed.

Lemma best_lt : forall l cur,
  (forall x y, In x (cur :: l) -> In y (cur :: l) -> exists c, pycmp x y = Ok (Some c)) ->
  exists r, best pylt cur l = Ok r /\ In r (cur :: l) /\ forall y, In y (cur :: l) -> vle r y.
Proof.
  assert (R : forall v, (exists c, pycmp v v = Ok (Some c)) -> vle v v).
  { intros v [d Hd]. exists d. split; auto.
    assert (F := vle_flip _ _ _ Hd). rewrite Hd in F. injection F as F. destruct d; discriminate F || congruence. }
  induction l as [|v l IH]; intros cur H.
  - exists cur. split; [reflexivity|]. split; [left; auto|]. intros y [<-|[]].
    apply R. apply H; left; auto.
  - cbn [best]. unfold pylt at 1. destruct (H v cur) as [c Hc]; [right; left; auto|left; auto|].
    rewrite Hc. cbn [bind].
    set (nx := if match Some c with Some Lt => true | _ => false end then v else cur).
    destruct (IH nx) as (r & Hr & Ir & Mr).
    { intros x y Hx Hy. apply H.
      - destruct Hx as [<-|Hx]; [unfold nx; destruct c; cbn; auto|right; right; auto].
      - destruct Hy as [<-|Hy]; [unfold nx; destruct c; cbn; auto|right; right; auto]. }
    exists r. split; [exact Hr|]. split.
    + destruct Ir as [<-|Ir]; [unfold nx; destruct c; cbn; auto|right; right; auto].
    + assert (Mn : vle r nx) by (apply Mr; left; auto).
      intros y [<-|[<-|Hy]].
      * apply vle_trans with nx; auto. unfold nx. destruct c; try (apply R; apply H; left; auto).
        exists Lt. split; [exact Hc|congruence].
      * apply vle_trans with nx; auto. unfold nx. destruct c.
        -- exists Eq. split; [|congruence]. apply (vle_flip _ _ _ Hc).
        -- apply R. apply H; right; left; auto.
        -- exists Lt. split; [|congruence]. apply (vle_flip _ _ _ Hc).
      * apply Mr. right; auto.
Qed.

Lemma best_none : forall f l cur, In VNone (cur :: l) -> l <> [] -> exists e, best (cmp_op f) cur l = Err e.
Proof.
  intros f. induction l as [|v l IH]; intros cur H Hn; [congruence|].
  cbn [best]. unfold cmp_op at 1. destruct (pycmp v cur) as [c|e] eqn:E; cbn [bind]; [|eauto].
  assert (cur <> VNone) by (intro K; subst; destruct v; discriminate E).
  assert (v <> VNone) by (intro K; subst; destruct cur; discriminate E).
  destruct H as [H|[H|H]]; try congruence.
  apply IH; [right; auto|]. intro K; subst; destruct H.
Qed.

Lemma map_res_none : forall l, In VNone l -> exists e, map_res ensure_number l = Err e.
Proof.
  induction l as [|v l IH]; intros H; [destruct H|]. cbn.
  destruct (ensure_number v) eqn:E; cbn [bind]; [|eauto].
  destruct H as [->|H]; [discriminate|]. destruct (IH H) as [e ->]. cbn. eauto.
Qed.

From Coq Require Import SpecFloat.
From Verif Require Import Base PyVal Calc_Model Agg_Model Agg_Spec Reduce_Spec Expr_Syntax Expr_Model Expr_Spec Expr_Proofs Having_Spec Having_Model Having_Proofs
  Group_Syntax Group_Model Group_Spec Group_Proofs Inner_Syntax Inner_Model Inner_Spec.
Open Scope nat_scope.

(** ** The arguments of a node with their numbers *)
Definition opt_list {A} (o : option A) : list A := match o with Some x => [x] | None => [] end.
Definition kids (e : expr) : list (nat * expr) :=
  match e with
  | EConst _ | ECol _ => []
  | EParen a | ENeg a | ENot a => [(0, a)]
  | EAnd a b | EOr a b | EIs a b | EBin _ a b | EIfNull a b => [(0, a); (1, b)]
  | EBetween a b c => [(0, a); (1, b); (2, c)]
  | EIf a b c => [(0, a); (1, b)] ++ match c with Some c => [(2, c)] | None => [] end
  | EIn a l | ECoalesce a l => (0, a) :: mapi (fun i x => (S i, x)) 0 l
  | ECase o ifs els =>
      match o with Some x => [(0, x)] | None => [] end ++
      concati (fun i wt => [(S (S (2 * i)), fst wt); (S (S (S (2 * i))), snd wt)]) 0 ifs ++
      match els with Some x => [(1, x)] | None => [] end
  | EFun k l => mapi (fun i x => (i, x)) 0 l
  end.
Definition mapk (f : nat -> expr -> expr) (e : expr) : expr :=
  match e with
  | EConst v => EConst v
  | ECol n => ECol n
  | EParen a => EParen (f 0 a)
  | ENeg a => ENeg (f 0 a)
  | ENot a => ENot (f 0 a)
  | EAnd a b => EAnd (f 0 a) (f 1 b)
  | EOr a b => EOr (f 0 a) (f 1 b)
  | EIs a b => EIs (f 0 a) (f 1 b)
  | EBin k a b => EBin k (f 0 a) (f 1 b)
  | EIn a l => EIn (f 0 a) (mapi (fun i x => f (S i) x) 0 l)
  | EBetween a b c => EBetween (f 0 a) (f 1 b) (f 2 c)
  | EIf a b c => EIf (f 0 a) (f 1 b) (match c with Some c => Some (f 2 c) | None => None end)
  | EIfNull a b => EIfNull (f 0 a) (f 1 b)
  | ECoalesce a l => ECoalesce (f 0 a) (mapi (fun i x => f (S i) x) 0 l)
  | ECase o ifs els =>
      ECase (match o with Some x => Some (f 0 x) | None => None end)
            (mapi (fun i wt => (f (S (S (2 * i))) (fst wt), f (S (S (S (2 * i)))) (snd wt))) 0 ifs)
            (match els with Some x => Some (f 1 x) | None => None end)
  | EFun k l => EFun k (mapi (fun i x => f i x) 0 l)
  end.

Lemma in_mapi : forall A B (g : nat -> A -> B) l i y, In y (mapi g i l) <-> exists j x, nth_error l j = Some x /\ y = g (i + j) x.
Proof.
  intros A B g. induction l as [|x l IH]; intros i y; cbn [mapi].
  - split; [intros []|intros ([|j] & z & H & _); discriminate H].
  - cbn [In]. rewrite IH. split.
    + intros [<-|(j & z & H & ->)]; [exists 0, x; split; [reflexivity|f_equal; lia]|exists (S j), z; split; [exact H|f_equal; lia]].
    + intros ([|j] & z & H & ->); [left; cbn in H; injection H as <-; f_equal; lia|right; exists j, z; split; [exact H|f_equal; lia]].
Qed.
Lemma in_concati : forall A B (f : nat -> A -> list B) l i y, In y (concati f i l) <-> exists j x, nth_error l j = Some x /\ In y (f (i + j) x).
Proof.
  intros A B f. induction l as [|x l IH]; intros i y; cbn [concati].
  - split; [intros []|intros ([|j] & z & H & _); discriminate H].
  - rewrite in_app_iff, IH. split.
    + intros [H|(j & z & H & I)]; [exists 0, x; rewrite Nat.add_0_r; split; [reflexivity|exact H]|exists (S j), z; split; [exact H|rewrite Nat.add_succ_r; exact I]].
    + intros ([|j] & z & H & I); [left; cbn in H; injection H as <-; rewrite Nat.add_0_r in I; exact I|right; exists j, z; split; [exact H|rewrite Nat.add_succ_r in I; exact I]].
Qed.
Lemma mapi_ext : forall A B (f g : nat -> A -> B) l i, (forall j x, nth_error l j = Some x -> f (i + j) x = g (i + j) x) -> mapi f i l = mapi g i l.
Proof.
  intros A B f g. induction l as [|x l IH]; intros i H; [reflexivity|]. cbn [mapi]. f_equal.
  - specialize (H 0 x eq_refl). rewrite Nat.add_0_r in H. exact H.
  - apply IH. intros j y E. specialize (H (S j) y E). rewrite Nat.add_succ_r in H. exact H.
Qed.
Lemma map_mapi : forall A B C (h : B -> C) (f : nat -> A -> B) l i, map h (mapi f i l) = mapi (fun j x => h (f j x)) i l.
Proof. intros A B C h f. induction l as [|x l IH]; intros i; [reflexivity|]. cbn [mapi map]. rewrite IH. reflexivity. Qed.
Lemma mapi_mapi : forall A B C (h : nat -> B -> C) (f : nat -> A -> B) l i, mapi h i (mapi f i l) = mapi (fun j x => h j (f j x)) i l.
Proof. intros A B C h f. induction l as [|x l IH]; intros i; [reflexivity|]. cbn [mapi]. rewrite IH. reflexivity. Qed.
Lemma Forall2_mapi : forall A B (R : A -> B -> Prop) (f : nat -> A -> B) l i,
  (forall j x, nth_error l j = Some x -> R x (f (i + j) x)) -> Forall2 R l (mapi f i l).
Proof.
  intros A B R f. induction l as [|x l IH]; intros i H; cbn [mapi]; constructor.
  - specialize (H 0 x eq_refl). rewrite Nat.add_0_r in H. exact H.
  - apply IH. intros j y E. specialize (H (S j) y E). rewrite Nat.add_succ_r in H. exact H.
Qed.

(** Induction over trees by their arguments. *)
Lemma kid_induction : forall P : expr -> Prop, (forall e, (forall i c, In (i, c) (kids e) -> P c) -> P e) -> forall e, P e.
Proof.
  intros P H e.
  induction e as [v|m|a IHa|a IHa|a IHa|a b IHa IHb|a b IHa IHb|a b IHa IHb|k a b IHa IHb|a l IHa IHl|a lo hi IHa IHlo IHhi
                 |c a f IHc IHa IHf|a b IHa IHb|a l IHa IHl|o ifs els IHo IHifs IHels|k l IHl] using expr_induction; apply H; cbn [kids]; intros i x I.
  all: try (cbn [In] in I; repeat (destruct I as [I|I]; [injection I as <- <-; assumption|]); destruct I; fail).
  - destruct I as [I|I]; [injection I as <- <-; exact IHa|]. apply in_mapi in I as (j & y & E & I). injection I as -> ->.
    apply nth_error_In in E. rewrite Forall_forall in IHl. apply IHl. exact E.
  - apply in_app_iff in I. destruct I as [I|I].
    + destruct I as [I|[I|[]]]; injection I as <- <-; assumption.
    + destruct f as [f|]; [|destruct I]. destruct I as [I|[]]. injection I as <- <-. exact IHf.
  - destruct I as [I|I]; [injection I as <- <-; exact IHa|]. apply in_mapi in I as (j & y & E & I). injection I as -> ->.
    apply nth_error_In in E. rewrite Forall_forall in IHl. apply IHl. exact E.
  - rewrite !in_app_iff in I. destruct I as [I|[I|I]].
    + destruct o as [o|]; [|destruct I]. destruct I as [I|[]]. injection I as <- <-. exact IHo.
    + apply in_concati in I as (j & [w y] & E & I). apply nth_error_In in E. rewrite Forall_forall in IHifs. destruct (IHifs _ E) as [A B].
      cbn [fst snd] in *. destruct I as [I|[I|[]]]; injection I as _ <-; assumption.
    + destruct els as [els|]; [|destruct I]. destruct I as [I|[]]. injection I as <- <-. exact IHels.
  - apply in_mapi in I as (j & y & E & I). injection I as -> ->. apply nth_error_In in E. rewrite Forall_forall in IHl. apply IHl. exact E.
Qed.

Lemma mapk_ext : forall f g e, (forall i c, In (i, c) (kids e) -> f i c = g i c) -> mapk f e = mapk g e.
Proof.
  intros f g e H. destruct e; cbn [mapk kids] in *; try reflexivity.
  all: try (rewrite !H by (cbn [In]; tauto); reflexivity).
  - rewrite (H 0 e) by (left; reflexivity). f_equal. apply mapi_ext. intros j x E. apply H. right. apply in_mapi. exists j, x. split; [exact E|reflexivity].
  - rewrite (H 0 e1), (H 1 e2) by (cbn; tauto). f_equal. destruct f0 as [x|]; [|reflexivity]. rewrite (H 2 x) by (cbn; tauto). reflexivity.
  - rewrite (H 0 e) by (left; reflexivity). f_equal. apply mapi_ext. intros j x E. apply H. right. apply in_mapi. exists j, x. split; [exact E|reflexivity].
  - f_equal.
    + destruct this as [x|]; [|reflexivity]. rewrite (H 0 x) by (rewrite !in_app_iff; left; left; reflexivity). reflexivity.
    + apply mapi_ext. intros j [w x] E. cbn [fst snd]. f_equal; apply H; rewrite !in_app_iff; right; left; apply in_concati; exists j, (w, x); (split; [exact E|]); [left|right; left]; reflexivity.
    + destruct els as [x|]; [|reflexivity]. rewrite (H 1 x) by (rewrite !in_app_iff; right; right; left; reflexivity). reflexivity.
  - f_equal. apply mapi_ext. intros j x E. apply H. apply in_mapi. exists j, x. split; [exact E|reflexivity].
Qed.
Lemma kids_nodup : forall e, NoDup (map fst (kids e)).
Proof.
  assert (M : forall A (g : nat -> A -> nat) l i, (forall j x k y, j < k -> g j x < g k y) -> NoDup (mapi g i l)).
  { intros A g l. induction l as [|x l IH]; intros i H; cbn [mapi]; constructor; [|apply IH; exact H].
    intros I. apply in_mapi in I as (j & y & _ & E). specialize (H i x (S i + j) y). lia. }
  intros e. destruct e; cbn [kids]; try (cbn; repeat constructor; cbn; lia).
  - cbn [map fst]. rewrite map_mapi. constructor.
    + intros I. apply in_mapi in I as (j & y & _ & E). cbn in E. lia.
    + apply M. cbn. intros; lia.
  - destruct f; cbn; repeat constructor; cbn; lia.
  - cbn [map fst]. rewrite map_mapi. constructor.
    + intros I. apply in_mapi in I as (j & y & _ & E). cbn in E. lia.
    + apply M. cbn. intros; lia.
  - assert (C : forall l i, map fst (concati (fun i0 wt => [(S (S (2 * i0)), fst wt); (S (S (S (2 * i0))), snd wt)]) i l) = seq (2 * i + 2) (2 * length (l : list (expr * expr)))).
    { induction l as [|x l IH]; intros i; [reflexivity|]. cbn [concati map app fst length].
      replace (2 * S (length l)) with (S (S (2 * length l))) by lia. cbn [seq]. rewrite IH. repeat (f_equal; try lia). }
    assert (D : NoDup (seq (2 * 0 + 2) (2 * length ifs) ++ map fst (match els with Some x => [(1, x)] | None => [] end))).
    { destruct els as [x|]; cbn [map fst]; [|rewrite app_nil_r; apply seq_NoDup].
      apply Union_Proofs.NoDup_app_one; [apply seq_NoDup|]. intros I. apply in_seq in I. lia. }
    rewrite !map_app, C. destruct this as [x|]; [|exact D]. cbn [map fst app]. constructor; [|exact D].
    intros I. apply in_app_iff in I. destruct I as [I|I]; [apply in_seq in I; lia|]. destruct els; cbn in I; [|exact I]. destruct I as [I|I]; [discriminate I|exact I].
  - rewrite map_mapi. apply M. cbn. intros; lia.
Qed.

(** ** What is found *)
Lemma parse_kids : forall p e, as_aggregate e = None -> parse_aggregate p e = concat (map (fun ic => parse_aggregate (fst ic :: p) (snd ic)) (kids e)).
Proof.
  assert (L : forall p (h : nat -> nat) l i, concati (fun i x => parse_aggregate (h i :: p) x) i l
              = concat (map (fun ic => parse_aggregate (fst ic :: p) (snd ic)) (mapi (fun i x => (h i, x)) i l))).
  { intros p h. induction l as [|x l IH]; intros i; [reflexivity|]. cbn [concati mapi map concat fst snd]. rewrite IH. reflexivity. }
  intros p e H. destruct e; cbn [parse_aggregate]; unfold is_aggregate; rewrite H; cbn [app kids map concat fst snd]; rewrite ?app_nil_r; try reflexivity.
  - rewrite (L p S). reflexivity.
  - destruct f; cbn [map concat fst snd]; rewrite ?app_nil_r; reflexivity.
  - rewrite (L p S). reflexivity.
  - assert (C : forall l i, concati (fun i wt => parse_aggregate (S (S (2 * i)) :: p) (fst wt) ++ parse_aggregate (S (S (S (2 * i))) :: p) (snd wt)) i (l : list (expr * expr))
                = concat (map (fun ic => parse_aggregate (fst ic :: p) (snd ic)) (concati (fun i0 wt => [(S (S (2 * i0)), fst wt); (S (S (S (2 * i0))), snd wt)]) i l))).
    { induction l as [|x l IH]; intros i; [reflexivity|]. cbn [concati app map concat fst snd]. rewrite IH, <- app_assoc. reflexivity. }
    rewrite C, !map_app, !concat_app. destruct this, els; cbn [map concat fst snd]; rewrite ?app_nil_r; reflexivity.
  - exact (L p (fun i => i) args 0).
Qed.

Lemma part_kid : forall x i c e, In (i, c) (kids e) -> part x c -> part x e.
Proof.
  intros x i c e I P. destruct e; cbn [kids] in I.
  all: try (destruct I; fail).
  all: try (cbn [In] in I; repeat (destruct I as [I|I]; [injection I as <- <-; constructor; tauto|]); destruct I; fail).
  - constructor. destruct I as [I|I]; [injection I as <- <-; left; exact P|]. apply in_mapi in I as (j & y & E & I). injection I as -> ->.
    right. exists y. split; [eapply nth_error_In; exact E|exact P].
  - apply in_app_iff in I. destruct f as [f|].
    + apply P_if_else. destruct I as [[I|[I|[]]]|[I|[]]]; injection I as <- <-; tauto.
    + apply P_if. destruct I as [[I|[I|[]]]|[]]; injection I as <- <-; tauto.
  - constructor. destruct I as [I|I]; [injection I as <- <-; left; exact P|]. apply in_mapi in I as (j & y & E & I). injection I as -> ->.
    right. exists y. split; [eapply nth_error_In; exact E|exact P].
  - rewrite !in_app_iff in I. destruct I as [I|[I|I]].
    + destruct this as [o|]; [|destruct I]. destruct I as [I|[]]. injection I as <- <-. apply P_case_of. exact P.
    + apply in_concati in I as (j & [w y] & E & I). apply nth_error_In in E. apply (P_case_when x this ifs els w y E).
      cbn [fst snd] in I. destruct I as [I|[I|[]]]; injection I as _ <-; tauto.
    + destruct els as [o|]; [|destruct I]. destruct I as [I|[]]. injection I as <- <-. apply P_case_else. exact P.
  - apply in_mapi in I as (j & y & E & I). injection I as -> ->. apply nth_error_In in E. exact (P_fun x key args y E P).
Qed.

Definition aggregate_free (e : expr) : Prop := forall z b, part z e -> as_aggregate z = Some b -> False.
Lemma parse_free : forall e, aggregate_free e -> forall p, parse_aggregate p e = [].
Proof.
  induction e as [e IH] using kid_induction. intros H p. destruct (as_aggregate e) as [a|] eqn:A; [destruct (H e a (P_self e) A)|].
  rewrite (parse_kids p e A).
  assert (G : forall l, (forall ic, In ic l -> In ic (kids e)) -> concat (map (fun ic => parse_aggregate (fst ic :: p) (snd ic)) l) = []); [|apply G; auto].
  induction l as [|[i c] l IHl]; intros S; [reflexivity|]. cbn [map concat fst snd]. rewrite IHl by (intros ic J; apply S; right; exact J).
  rewrite app_nil_r. apply (IH i c); [apply S; left; reflexivity|]. intros z b P. apply H. eapply part_kid; [apply S; left; reflexivity|exact P].
Qed.
Lemma as_aggregate_fun : forall e a, as_aggregate e = Some a ->
  exists k l, e = EFun k l /\ ((l = [] /\ a_arg a = None /\ a_distinct a = false) \/ (exists x, l = [x] /\ a_arg a = Some x)).
Proof.
  intros e a A. destruct e; try discriminate A. cbn [as_aggregate] in A. destruct (assoc key aggregate_names) as [[f d]|]; [|discriminate A].
  exists key, args. split; [reflexivity|]. destruct args as [|x [|y l]].
  - destruct d; [discriminate A|]. injection A as <-. left. repeat split.
  - destruct d; injection A as <-; right; exists x; split; reflexivity.
  - destruct d; discriminate A.
Qed.
Lemma parse_agg : forall p e a, as_aggregate e = Some a -> not_nested e -> parse_aggregate p e = [(p, e)].
Proof.
  intros p e a A N. destruct (as_aggregate_fun e a A) as (k & l & -> & [(-> & _ & D)|(x & -> & X)]).
  - cbn [parse_aggregate]. unfold is_aggregate. rewrite A. rewrite D. reflexivity.
  - cbn [parse_aggregate]. unfold is_aggregate. rewrite A. destruct (a_distinct a); [reflexivity|]. cbn [concati].
    rewrite (parse_free x); [reflexivity|]. intros z b P B. exact (N (EFun k [x]) a x z b (P_self _) A X P B).
Qed.
Lemma not_nested_kid : forall i c e, In (i, c) (kids e) -> not_nested e -> not_nested c.
Proof. intros i c e I N x a y z b P. apply N. eapply part_kid; eassumption. Qed.

(** What is found are aggregates in the expression, at paths below it. *)
Lemma parse_sound : forall e p q x, In (q, x) (parse_aggregate p e) -> not_nested e -> (exists s, q = s ++ p) /\ part x e /\ as_aggregate x <> None.
Proof.
  induction e as [e IH] using kid_induction. intros p q x I N. destruct (as_aggregate e) as [a|] eqn:A.
  - rewrite (parse_agg p e a A N) in I. destruct I as [I|[]]. injection I as <- <-. split; [exists []; reflexivity|]. split; [constructor|congruence].
  - rewrite (parse_kids p e A) in I. apply in_concat in I as (l & L & I). apply in_map_iff in L as ([i c] & <- & K). cbn [fst snd] in I.
    destruct (IH i c K (i :: p) q x I (not_nested_kid i c e K N)) as ((s & ->) & P & X). split; [|split; [eapply part_kid; eassumption|exact X]].
    exists (s ++ [i]). rewrite <- app_assoc. reflexivity.
Qed.
Lemma parse_nodup : forall e p, not_nested e -> NoDup (map fst (parse_aggregate p e)).
Proof.
  induction e as [e IH] using kid_induction. intros p N. destruct (as_aggregate e) as [a|] eqn:A.
  - rewrite (parse_agg p e a A N). cbn. repeat constructor. intros [].
  - rewrite (parse_kids p e A). pose proof (kids_nodup e) as KD.
    assert (G : forall l, (forall ic, In ic l -> In ic (kids e)) -> NoDup (map fst l) ->
              NoDup (map fst (concat (map (fun ic => parse_aggregate (fst ic :: p) (snd ic)) l)))); [|apply G; auto].
    induction l as [|[i c] l IHl]; intros S D; [constructor|]. cbn [map concat fst snd] in *. inversion D as [|? ? D1 D2]; subst.
    assert (Kc : In (i, c) (kids e)) by (apply S; left; reflexivity).
    rewrite map_app. pose proof (IH i c Kc (i :: p) (not_nested_kid i c e Kc N)) as ND.
    assert (ND2 : NoDup (map fst (concat (map (fun ic => parse_aggregate (fst ic :: p) (snd ic)) l)))) by (apply IHl; [intros ic J; apply S; right; exact J|exact D2]).
    assert (DJ : forall q, In q (map fst (parse_aggregate (i :: p) c)) -> In q (map fst (concat (map (fun ic => parse_aggregate (fst ic :: p) (snd ic)) l))) -> False).
    { intros q I J. apply in_map_iff in I as ([q1 x] & <- & I). cbn [fst] in J. apply in_map_iff in J as ([q2 y] & E & J). cbn [fst] in E. subst q2.
      apply in_concat in J as (m & M & J). apply in_map_iff in M as ([j d] & <- & M). cbn [fst snd] in J.
      assert (Kd : In (j, d) (kids e)) by (apply S; right; exact M).
      destruct (parse_sound c (i :: p) q1 x I (not_nested_kid i c e Kc N)) as ((s & E1) & _).
      destruct (parse_sound d (j :: p) q1 y J (not_nested_kid j d e Kd N)) as ((s' & E2) & _).
      rewrite E1 in E2. change (i :: p) with ([i] ++ p) in E2. change (j :: p) with ([j] ++ p) in E2. rewrite !app_assoc in E2. apply app_inv_tail in E2.
      apply app_inj_tail in E2. destruct E2 as [_ ->]. apply D1. apply in_map_iff. exists (j, d). split; [reflexivity|exact M]. }
    clear -ND ND2 DJ. induction (map fst (parse_aggregate (i :: p) c)) as [|q l' IHm]; [exact ND2|]. cbn [app]. inversion ND; subst. constructor.
    + intros I. apply in_app_iff in I. destruct I as [I|I]; [contradiction|]. apply (DJ q); [left; reflexivity|exact I].
    + apply IHm; [assumption|]. intros q' I. apply DJ. right. exact I.
Qed.

(** ** Marking what is found is marking the aggregates *)
Lemma path_eqb_spec : forall a b, path_eqb a b = true <-> a = b.
Proof.
  induction a as [|x a IH]; intros [|y b]; cbn [path_eqb]; split; intros H; try discriminate H; auto.
  - apply andb_prop in H. destruct H as [H1 H2]. apply Nat.eqb_eq in H1. apply IH in H2. congruence.
  - injection H as -> ->. rewrite Nat.eqb_refl. apply IH. reflexivity.
Qed.
Lemma mem_path : forall q l, existsb (path_eqb q) l = true <-> In q l.
Proof. intros q l. rewrite existsb_exists. split; [intros (x & I & E); apply path_eqb_spec in E; subst; exact I|intros I; exists q; split; [exact I|apply path_eqb_spec; reflexivity]]. Qed.

Section Marked.
Variable nm : path -> text.
Fixpoint markA (p : path) (e : expr) : expr :=
  if is_aggregate e then ECol (nm p) else
  match e with
  | EConst v => EConst v
  | ECol n => ECol n
  | EParen a => EParen (markA (0 :: p) a)
  | ENeg a => ENeg (markA (0 :: p) a)
  | ENot a => ENot (markA (0 :: p) a)
  | EAnd a b => EAnd (markA (0 :: p) a) (markA (1 :: p) b)
  | EOr a b => EOr (markA (0 :: p) a) (markA (1 :: p) b)
  | EIs a b => EIs (markA (0 :: p) a) (markA (1 :: p) b)
  | EBin k a b => EBin k (markA (0 :: p) a) (markA (1 :: p) b)
  | EIn a l => EIn (markA (0 :: p) a) (mapi (fun i x => markA (S i :: p) x) 0 l)
  | EBetween a b c => EBetween (markA (0 :: p) a) (markA (1 :: p) b) (markA (2 :: p) c)
  | EIf a b c => EIf (markA (0 :: p) a) (markA (1 :: p) b) (match c with Some c => Some (markA (2 :: p) c) | None => None end)
  | EIfNull a b => EIfNull (markA (0 :: p) a) (markA (1 :: p) b)
  | ECoalesce a l => ECoalesce (markA (0 :: p) a) (mapi (fun i x => markA (S i :: p) x) 0 l)
  | ECase o ifs els =>
      ECase (match o with Some x => Some (markA (0 :: p) x) | None => None end)
            (mapi (fun i wt => (markA (S (S (2 * i)) :: p) (fst wt), markA (S (S (S (2 * i))) :: p) (snd wt))) 0 ifs)
            (match els with Some x => Some (markA (1 :: p) x) | None => None end)
  | EFun k l => EFun k (mapi (fun i x => markA (i :: p) x) 0 l)
  end.
Lemma markA_agg : forall p e a, as_aggregate e = Some a -> markA p e = ECol (nm p).
Proof. intros p e a A. destruct e; cbn [markA]; unfold is_aggregate; rewrite A; reflexivity. Qed.
Lemma markA_kids : forall p e, as_aggregate e = None -> markA p e = mapk (fun i c => markA (i :: p) c) e.
Proof. intros p e A. destruct e; cbn [markA]; unfold is_aggregate; rewrite A; reflexivity. Qed.
Lemma mark_kids : forall m p e, m p = false -> mark nm m p e = mapk (fun i c => mark nm m (i :: p) c) e.
Proof. intros m p e A. destruct e; cbn [mark]; rewrite A; reflexivity. Qed.
Lemma mark_here : forall m p e, m p = true -> mark nm m p e = ECol (nm p).
Proof. intros m p e A. destruct e; cbn [mark]; rewrite A; reflexivity. Qed.

Lemma mark_markA : forall m e p, not_nested e ->
  (forall s, m (s ++ p) = existsb (path_eqb (s ++ p)) (map fst (parse_aggregate p e))) -> mark nm m p e = markA p e.
Proof.
  intros m. induction e as [e IH] using kid_induction. intros p N H. destruct (as_aggregate e) as [a|] eqn:A.
  - rewrite (markA_agg p e a A). apply mark_here. specialize (H []). cbn [app] in H. rewrite H. rewrite (parse_agg p e a A N). apply mem_path. left. reflexivity.
  - rewrite (markA_kids p e A). rewrite mark_kids.
    + apply mapk_ext. intros i c K. apply (IH i c K); [eapply not_nested_kid; eassumption|]. intros s.
      replace (s ++ i :: p) with ((s ++ [i]) ++ p) by (rewrite <- app_assoc; reflexivity). rewrite H. rewrite (parse_kids p e A). rewrite <- app_assoc. cbn [app].
      apply Bool.eq_iff_eq_true. rewrite !mem_path. split.
      * intros I. apply in_map_iff in I as ([q x] & E & I). cbn [fst] in E. subst q. apply in_concat in I as (l & L & I). apply in_map_iff in L as ([j d] & <- & Kd).
        cbn [fst snd] in I. destruct (parse_sound d (j :: p) _ x I (not_nested_kid j d e Kd N)) as ((s' & E) & _).
        change (i :: p) with ([i] ++ p) in E. change (j :: p) with ([j] ++ p) in E. rewrite !app_assoc in E. apply app_inv_tail in E.
        apply app_inj_tail in E. destruct E as [_ ->]. pose proof (kids_nodup e) as KD.
        assert (c = d); [|subst; apply in_map_iff; exists (s ++ j :: p, x); split; [reflexivity|exact I]].
        clear -KD K Kd. induction (kids e) as [|[a b] l IHl]; [destruct K|]. cbn [map fst] in KD. inversion KD as [|? ? K1 K2]; subst.
        destruct K as [K|K], Kd as [D|D]; [congruence| | |auto].
        -- injection K as -> ->. exfalso. apply K1. apply in_map_iff. exists (j, d). split; [reflexivity|exact D].
        -- injection D as -> ->. exfalso. apply K1. apply in_map_iff. exists (j, c). split; [reflexivity|exact K].
      * intros I. apply in_map_iff in I as ([q x] & E & I). cbn [fst] in E. subst q. apply in_map_iff. exists (s ++ i :: p, x). split; [reflexivity|].
        apply in_concat. exists (parse_aggregate (i :: p) c). split; [apply in_map_iff; exists (i, c); split; [reflexivity|exact K]|exact I].
    + specialize (H []). cbn [app] in H. rewrite H. apply not_true_is_false. intros M. apply mem_path in M. apply in_map_iff in M as ([q x] & E & I). cbn [fst] in E. subst q.
      rewrite (parse_kids p e A) in I. apply in_concat in I as (l & L & I). apply in_map_iff in L as ([i c] & <- & K). cbn [fst snd] in I.
      destruct (parse_sound c (i :: p) p x I (not_nested_kid i c e K N)) as ((s & E) & _). apply (f_equal (@length nat)) in E. rewrite app_length in E. cbn [length] in E. lia.
Qed.

(** ** Filling in the values *)
Lemma filled_mapk : forall V f e, as_aggregate e = None -> (forall i c, In (i, c) (kids e) -> filled V c (f i c)) -> filled V e (mapk f e).
Proof.
  intros V f e A H. destruct e; cbn [mapk kids] in *.
  all: try (constructor; apply H; cbn [In]; tauto).
  all: try (constructor; fail).
  - constructor; [apply H; left; reflexivity|]. apply Forall2_mapi. intros j x E. apply H. right. apply in_mapi. exists j, x. split; [exact E|reflexivity].
  - constructor; [apply H; cbn; tauto|apply H; cbn; tauto|]. destruct f0 as [x|]; [|constructor]. constructor. apply H. cbn. tauto.
  - constructor; [apply H; left; reflexivity|]. apply Forall2_mapi. intros j x E. apply H. right. apply in_mapi. exists j, x. split; [exact E|reflexivity].
  - constructor.
    + destruct this as [x|]; constructor. apply H. rewrite !in_app_iff. left. left. reflexivity.
    + apply Forall2_mapi. intros j [w x] E. cbn [fst snd]. split; apply H; rewrite !in_app_iff; right; left; apply in_concati; exists j, (w, x); (split; [exact E|]); [left|right; left]; reflexivity.
    + destruct els as [x|]; constructor. apply H. rewrite !in_app_iff. right. right. left. reflexivity.
  - constructor; [exact A|]. apply Forall2_mapi. intros j x E. apply H. apply in_mapi. exists j, x. split; [exact E|reflexivity].
Qed.

(** Replacing columns by values. *)
Section Subst.
Variable s : text -> option val.
Fixpoint subst (e : expr) : expr :=
  match e with
  | EConst v => EConst v
  | ECol n => match s n with Some v => EConst v | None => ECol n end
  | EParen a => EParen (subst a)
  | ENeg a => ENeg (subst a)
  | ENot a => ENot (subst a)
  | EAnd a b => EAnd (subst a) (subst b)
  | EOr a b => EOr (subst a) (subst b)
  | EIs a b => EIs (subst a) (subst b)
  | EBin k a b => EBin k (subst a) (subst b)
  | EIn a l => EIn (subst a) (mapi (fun _ x => subst x) 0 l)
  | EBetween a b c => EBetween (subst a) (subst b) (subst c)
  | EIf a b c => EIf (subst a) (subst b) (match c with Some c => Some (subst c) | None => None end)
  | EIfNull a b => EIfNull (subst a) (subst b)
  | ECoalesce a l => ECoalesce (subst a) (mapi (fun _ x => subst x) 0 l)
  | ECase o ifs els =>
      ECase (match o with Some x => Some (subst x) | None => None end)
            (mapi (fun _ wt => (subst (fst wt), subst (snd wt))) 0 ifs)
            (match els with Some x => Some (subst x) | None => None end)
  | EFun k l => EFun k (mapi (fun _ x => subst x) 0 l)
  end.
Lemma subst_mapk : forall f e, (forall n, e <> ECol n) -> subst (mapk f e) = mapk (fun i c => subst (f i c)) e.
Proof.
  intros f e H. destruct e; cbn [mapk subst]; try reflexivity.
  - destruct (H name eq_refl).
  - rewrite mapi_mapi. reflexivity.
  - destruct f0; reflexivity.
  - rewrite mapi_mapi. reflexivity.
  - rewrite mapi_mapi. destruct this, els; reflexivity.
  - rewrite mapi_mapi. reflexivity.
Qed.
Lemma mapi_map : forall A B (f : A -> B) l i, mapi (fun _ x => f x) i l = map f l.
Proof. intros A B f. induction l as [|x l IH]; intros i; [reflexivity|]. cbn [mapi map]. rewrite IH. reflexivity. Qed.
Lemma sem_subst : forall tt fn r e, sem tt fn r (subst e) = sem tt fn (fun n => match s n with Some v => v | None => r n end) e.
Proof.
  intros tt fn r.
  induction e as [v|m|a IHa|a IHa|a IHa|a b IHa IHb|a b IHa IHb|a b IHa IHb|k a b IHa IHb|a l IHa IHl|a lo hi IHa IHlo IHhi
                 |c a f IHc IHa IHf|a b IHa IHb|a l IHa IHl|o ifs els IHo IHifs IHels|k l IHl] using expr_induction; cbn [subst sem].
  all: try rewrite IHa; try rewrite IHb; try reflexivity.
  - destruct (s m); reflexivity.
  - rewrite mapi_map, map_map. f_equal. f_equal. apply map_ext_in. intros y I. rewrite Forall_forall in IHl. rewrite (IHl y I). reflexivity.
  - rewrite IHlo, IHhi. reflexivity.
  - rewrite IHc. destruct f as [f|]; [|reflexivity]. cbn [opt_all] in IHf. rewrite IHf. reflexivity.
  - rewrite mapi_map, map_map. f_equal. f_equal. apply map_ext_in. intros y I. rewrite Forall_forall in IHl. apply (IHl y I).
  - rewrite mapi_map, map_map. cbn [fst snd]. f_equal.
    + apply map_ext_in. intros [w x] I. rewrite Forall_forall in IHifs. destruct (IHifs _ I) as [A B]. cbn [fst snd] in *. rewrite A, B.
      destruct o as [o|]; [|reflexivity]. cbn [opt_all] in IHo. rewrite IHo. reflexivity.
    + destruct els as [x|]; [|reflexivity]. exact IHels.
  - rewrite mapi_map, map_map. f_equal. apply map_ext_in. intros y I. rewrite Forall_forall in IHl. apply (IHl y I).
Qed.
Lemma columns_subst : forall n e, In n (columns e) -> s n = None -> In n (columns (subst e)).
Proof.
  intros n.
  induction e as [v|m|a IHa|a IHa|a IHa|a b IHa IHb|a b IHa IHb|a b IHa IHb|k a b IHa IHb|a l IHa IHl|a lo hi IHa IHlo IHhi
                 |c a f IHc IHa IHf|a b IHa IHb|a l IHa IHl|o ifs els IHo IHifs IHels|k l IHl] using expr_induction; cbn [subst columns]; intros I S; rewrite ?in_app_iff in *.
  all: try (assert (LL : In n (flat_map columns l) -> In n (flat_map columns (mapi (fun _ x => subst x) 0 l)))
    by (intros J; rewrite mapi_map; apply in_flat_map in J as (x & X & J); apply in_flat_map; exists (subst x); split; [apply in_map; exact X|rewrite Forall_forall in IHl; apply (IHl x X J S)])).
  all: try tauto.
  - cbn in I. destruct I as [->|[]]. rewrite S. left. reflexivity.
  - destruct f as [f|]; cbn [opt_all] in IHf; tauto.
  - destruct I as [I|[I|I]].
    + left. destruct o; [|destruct I]. apply IHo; assumption.
    + right; left. destruct els; [|destruct I]. apply IHels; assumption.
    + right; right. rewrite mapi_map. apply in_flat_map in I as ([w x] & X & I). apply in_flat_map. exists (subst w, subst x). split; [apply in_map_iff; exists (w, x); split; [reflexivity|exact X]|].
      rewrite Forall_forall in IHifs. destruct (IHifs _ X) as [A B]. cbn [fst snd] in *. rewrite in_app_iff in *. tauto.
Qed.
End Subst.

Lemma mentions_kid : forall n i c e, In (i, c) (kids e) -> mentions n c -> mentions n e.
Proof.
  intros n i c e I P. destruct e; cbn [kids] in I.
  all: try (destruct I; fail).
  all: try (cbn [In] in I; repeat (destruct I as [I|I]; [injection I as <- <-; constructor; tauto|]); destruct I; fail).
  - constructor. destruct I as [I|I]; [injection I as <- <-; left; exact P|]. apply in_mapi in I as (j & y & E & I). injection I as -> ->.
    right. exists y. split; [eapply nth_error_In; exact E|exact P].
  - apply in_app_iff in I. destruct f as [f|].
    + apply M_if_else. destruct I as [[I|[I|[]]]|[I|[]]]; injection I as <- <-; tauto.
    + apply M_if. destruct I as [[I|[I|[]]]|[]]; injection I as <- <-; tauto.
  - constructor. destruct I as [I|I]; [injection I as <- <-; left; exact P|]. apply in_mapi in I as (j & y & E & I). injection I as -> ->.
    right. exists y. split; [eapply nth_error_In; exact E|exact P].
  - rewrite !in_app_iff in I. destruct I as [I|[I|I]].
    + destruct this as [o|]; [|destruct I]. destruct I as [I|[]]. injection I as <- <-. apply M_case_of. exact P.
    + apply in_concati in I as (j & [w y] & E & I). apply nth_error_In in E. apply (M_case_when n this ifs els w y E).
      cbn [fst snd] in I. destruct I as [I|[I|[]]]; injection I as _ <-; tauto.
    + destruct els as [o|]; [|destruct I]. destruct I as [I|[]]. injection I as <- <-. apply M_case_else. exact P.
  - apply in_mapi in I as (j & y & E & I). injection I as -> ->. apply nth_error_In in E. exact (M_fun n key args y E P).
Qed.

Lemma filled_marked : forall V s e p, not_nested e -> (forall n, mentions n e -> s n = None) ->
  (forall q x a, In (q, x) (parse_aggregate p e) -> as_aggregate x = Some a -> exists v, s (nm q) = Some v /\ V a v) ->
  filled V e (subst s (markA p e)).
Proof.
  intros V s. induction e as [e IH] using kid_induction. intros p N F H. destruct (as_aggregate e) as [a|] eqn:A.
  - rewrite (markA_agg p e a A). cbn [subst]. destruct (H p e a) as (v & -> & X); [rewrite (parse_agg p e a A N); left; reflexivity|exact A|]. apply (F_agg V e a v A X).
  - rewrite (markA_kids p e A). destruct (match e with ECol n => Some n | _ => None end) as [n|] eqn:C.
    + destruct e; try discriminate C. cbn [mapk subst]. rewrite (F name) by constructor. constructor.
    + rewrite subst_mapk by (intros n ->; discriminate C). apply filled_mapk; [exact A|]. intros i c K. apply (IH i c K).
      * eapply not_nested_kid; eassumption.
      * intros n M. apply F. eapply mentions_kid; eassumption.
      * intros q x a I. apply H. rewrite (parse_kids p e A). apply in_concat. exists (parse_aggregate (i :: p) c).
        split; [apply in_map_iff; exists (i, c); split; [reflexivity|exact K]|exact I].
Qed.

(** ** Marking keeps the class of expressions *)
Lemma boolean_markA : forall e p, boolean e -> boolean (markA p e).
Proof.
  intros e p B. revert p. induction B; intros p; cbn [markA is_aggregate as_aggregate]; try (constructor; auto; fail).
Qed.
Lemma never_null_markA : forall e p, never_null e -> never_null (markA p e).
Proof. intros e p B. revert p. induction B; intros p; cbn [markA is_aggregate as_aggregate]; try (constructor; auto; fail). Qed.

Lemma exact_markA : forall e, (forall p, exact e -> exact (markA p e)) /\ (forall p, cond e -> cond (markA p e)).
Proof.
  induction e as [e IH] using kid_induction.
  assert (X : forall p, exact e -> exact (markA p e)).
  { intros p H. destruct (as_aggregate e) as [a|] eqn:A; [rewrite (markA_agg p e a A); constructor|]. rewrite (markA_kids p e A).
    assert (K1 : forall i c q, In (i, c) (kids e) -> exact c -> exact (markA q c)) by (intros i c q K; apply (IH i c K)).
    assert (K2 : forall i c q, In (i, c) (kids e) -> cond c -> cond (markA q c)) by (intros i c q K; apply (IH i c K)).
    assert (LX : forall l (h : nat -> nat), (forall j x, nth_error l j = Some x -> In (h j, x) (kids e)) -> Forall exact l -> Forall exact (mapi (fun i x => markA (h i :: p) x) 0 l)).
    { intros l h K FL. apply Forall_forall. intros y I. apply in_mapi in I as (j & x & E & ->). cbn [Nat.add]. apply (K1 (h j) x); [apply K; exact E|].
      rewrite Forall_forall in FL. apply FL. eapply nth_error_In. exact E. }
    inversion H; subst; cbn [mapk kids] in *.
    all: try (constructor; try (eapply K1; [cbn [In]; eauto|assumption]); try (apply boolean_markA; assumption); try (apply never_null_markA; assumption); fail).
    - constructor; [apply (K1 0); [left; reflexivity|assumption]| |].
      + destruct l; [congruence|discriminate].
      + apply (LX l S); [|assumption]. intros j x E. right. apply in_mapi. exists j, x. split; [exact E|reflexivity].
    - constructor; [apply (K2 0); [left; reflexivity|assumption]|apply (K1 1); [right; left; reflexivity|assumption]|apply (K1 2); [right; right; left; reflexivity|assumption]].
    - constructor; [apply (K1 0); [left; reflexivity|assumption]|].
      apply (LX l S); [|assumption]. intros j x E. right. apply in_mapi. exists j, x. split; [exact E|reflexivity].
    - constructor.
      + apply Forall_forall. intros y I. apply in_mapi in I as (j & [w x] & E & ->). cbn [Nat.add fst snd].
        match goal with F : Forall _ ifs |- _ => rewrite Forall_forall in F; destruct (F (w, x) (nth_error_In _ _ E)) as [W1 W2] end. cbn [fst snd] in *.
        split; [apply (K2 (S (S (2 * j)))); [|assumption]|apply (K1 (S (S (S (2 * j))))); [|assumption]]; cbn [app];
          apply in_app_iff; left; apply in_concati; exists j, (w, x); (split; [exact E|]); [left|right; left]; reflexivity.
      + apply (K1 1); [|assumption]. cbn [app]. apply in_app_iff. right. left. reflexivity.
    - constructor.
      + apply (K1 0); [left; reflexivity|assumption].
      + apply Forall_forall. intros y I. apply in_mapi in I as (j & [w x] & E & ->). cbn [Nat.add fst snd].
        match goal with F : Forall _ ifs |- _ => rewrite Forall_forall in F; destruct (F (w, x) (nth_error_In _ _ E)) as [W1 W2] end. cbn [fst snd] in *.
        split; [apply (K1 (S (S (2 * j)))); [|assumption]|apply (K1 (S (S (S (2 * j))))); [|assumption]]; cbn [app];
          right; apply in_app_iff; left; apply in_concati; exists j, (w, x); (split; [exact E|]); [left|right; left]; reflexivity.
      + apply (K1 1); [|assumption]. cbn [app]. right. apply in_app_iff. right. left. reflexivity.
      + match goal with F : exists wt, _ |- _ => destruct F as ([w x] & I & NC) end. apply In_nth_error in I as (j & E). cbn [fst] in NC.
        exists (markA (S (S (2 * j)) :: p) w, markA (S (S (S (2 * j))) :: p) x). split; [apply in_mapi; exists j, (w, x); split; [exact E|reflexivity]|]. cbn [fst]. intros v.
        destruct (as_aggregate w) as [b|] eqn:Aw; [rewrite (markA_agg _ w b Aw); split; discriminate|]. rewrite (markA_kids _ w Aw).
        destruct (NC v) as [N1 N2]. destruct w; cbn [mapk]; split; try discriminate; try congruence.
        intros Q. injection Q as Q. destruct (as_aggregate w) as [b|] eqn:Ab; [rewrite (markA_agg _ w b Ab) in Q; discriminate Q|]. rewrite (markA_kids _ w Ab) in Q.
        destruct w; cbn [mapk] in Q; try discriminate Q. congruence.
    - constructor. apply (LX l (fun i => i)); [|assumption]. intros j x E. apply in_mapi. exists j, x. split; [exact E|reflexivity]. }
  split; [exact X|]. intros p H.
  destruct (as_aggregate e) as [a|] eqn:A.
  { inversion H; subst; try discriminate A. destruct (as_aggregate_fun _ _ A) as (k & l & -> & _). match goal with B : boolean (EFun _ _) |- _ => inversion B end. }
  assert (K1 : forall i c q, In (i, c) (kids e) -> exact c -> exact (markA q c)) by (intros i c q K; apply (IH i c K)).
  assert (K2 : forall i c q, In (i, c) (kids e) -> cond c -> cond (markA q c)) by (intros i c q K; apply (IH i c K)).
  inversion H; subst.
  - apply C_bool; [apply X; assumption|apply boolean_markA; assumption].
  - cbn [markA is_aggregate as_aggregate]. apply C_const. assumption.
  - rewrite (markA_kids p _ A). cbn [mapk]. apply C_paren. apply (K2 0); [left; reflexivity|assumption].
  - rewrite (markA_kids p _ A). cbn [mapk]. apply C_and; [apply (K2 0)|apply (K2 1)]; cbn; tauto.
  - rewrite (markA_kids p _ A). cbn [mapk]. apply C_or; [apply (K2 0)|apply (K2 1)]; cbn; tauto.
  - rewrite (markA_kids p _ A). cbn [mapk]. apply C_between; [apply (K1 0)|apply (K1 1)|apply (K1 2)]; cbn; tauto.
  - rewrite (markA_kids p _ A). cbn [mapk]. apply C_if; [apply (K2 0)|apply (K2 1)|apply (K2 2)]; cbn; tauto.
Qed.
End Marked.

(** Scripts whose order of statements does not matter to the two phases. *)
From Verif Require Import Base Vars_Spec Vars_Model Vars_Proofs.
Set Implicit Arguments.

Section Order.
Variable V : Type.
Variable null : V.
Notation stmt := (stmt V). Notation expr := (expr V). Notation scope := (scope V). Notation scopes := (scopes V).
Notation one := (one null). Notation sequence := (sequence null). Notation eval := (eval null). Notation put_new := (put_new null). Notation lookup := (lookup null).

(** Scopes that agree on all variables outside [P]. *)
Definition near (P : text -> Prop) : scopes -> scopes -> Prop := Forall2 (fun a b => forall y, ~ P y -> assoc y a = assoc y b).
Definition same : scopes -> scopes -> Prop := near (fun _ => False).

Lemma near_refl : forall P s, near P s s.
Proof. induction s; constructor; auto. Qed.
Lemma near_sym : forall P s1 s2, near P s1 s2 -> near P s2 s1.
Proof. induction 1 as [|a b r1 r2 H _ IH]; constructor; auto. intros z Hz. symmetry. auto. Qed.
Lemma near_trans : forall P s1 s2, near P s1 s2 -> forall s3, near P s2 s3 -> near P s1 s3.
Proof. induction 1 as [|a b r1 r2 H _ IH]; intros s3 H3; inversion H3 as [|? c ? r3 H4 H5]; subst; constructor; [|apply IH; assumption]. intros z Hz. rewrite H by exact Hz. auto. Qed.
Lemma same_near : forall P s1 s2, same s1 s2 -> near P s1 s2.
Proof. induction 1; constructor; auto. Qed.

Lemma assoc_put : forall y x v (l : scope), assoc y (put x v l) = if text_eqb y x then Some v else assoc y l.
Proof. reflexivity. Qed.
Lemma lookup_near : forall P x s1 s2, ~ P x -> near P s1 s2 -> lookup x s1 = lookup x s2.
Proof. intros P x s1 s2 N. induction 1 as [|a b s1 s2 H _ IH]; [reflexivity|]. cbn [Vars_Spec.lookup]. rewrite (H x N), IH. reflexivity. Qed.
Lemma eval_near : forall P s1 s2 e, (forall y, In y (reads e) -> ~ P y) -> near P s1 s2 -> eval s1 e = eval s2 e.
Proof.
  intros P s1 s2 e D H. induction e as [v|x|f a IHa b IHb]; cbn [Vars_Spec.eval reads] in *; [reflexivity|apply (lookup_near (P := P)); auto; apply D; left; reflexivity|].
  rewrite IHa, IHb; [reflexivity| |]; intros y Hy; apply D, in_or_app; auto.
Qed.
Lemma near_put_local : forall P x v s1 s2, near P s1 s2 -> near P (put_local x v s1) (put_local x v s2).
Proof. intros P x v s1 s2 [|a b r1 r2 H H2]; cbn [put_local]; constructor; [|exact H2]. intros y Hy. rewrite !assoc_put, (H y Hy). reflexivity. Qed.
Lemma near_put_global : forall P x v s1 s2, near P s1 s2 -> near P (put_global x v s1) (put_global x v s2).
Proof.
  intros P x v s1 s2. induction 1 as [|a b r1 r2 H H2 IH]; [constructor|]. cbn [put_global]. inversion H2; subst.
  - constructor; [|constructor]. intros y Hy. rewrite !assoc_put, (H y Hy). reflexivity.
  - constructor; [exact H|exact IH].
Qed.
Lemma near_put_new : forall (P : text -> Prop) x s1 s2, ~ P x -> near P s1 s2 -> near P (put_new x s1) (put_new x s2).
Proof.
  intros P x s1 s2 N [|a b r1 r2 H H2]; cbn [Vars_Spec.put_new]; [constructor|]. rewrite (H x N). destruct (assoc x b); constructor; auto.
  intros y Hy. rewrite !assoc_put, (H y Hy). reflexivity.
Qed.
Lemma near_tl : forall P s1 s2, near P s1 s2 -> near P (tl s1) (tl s2).
Proof. intros P s1 s2 [|a b r1 r2 H H2]; [constructor|exact H2]. Qed.

(** A statement does not see what it does not name. *)
Definition follows P (a : stmt) := (forall y, In y (names a) -> ~ P y) -> forall s1 s2, near P s1 s2 -> near P (fst (one a s1)) (fst (one a s2)) /\ snd (one a s1) = snd (one a s2).
Lemma sequence_near' : forall P f, Forall (follows P) f -> (forall y, In y (flat_map (@names V) f) -> ~ P y) -> forall s1 s2, near P s1 s2 ->
  near P (fst (sequence f s1)) (fst (sequence f s2)) /\ snd (sequence f s1) = snd (sequence f s2).
Proof.
  induction 1 as [|a f A _ IH]; intros D s1 s2 H; [split; [exact H|reflexivity]|]. cbn [Vars_Spec.sequence flat_map] in *.
  destruct (A (fun y Hy => D y (in_or_app _ _ y (or_introl Hy))) s1 s2 H) as [A1 A2]. destruct (one a s1) as [t1 o1], (one a s2) as [t2 o2]. cbn [fst snd] in *.
  destruct (IH (fun y Hy => D y (in_or_app _ _ y (or_intror Hy))) t1 t2 A1) as [B1 B2]. destruct (sequence f t1) as [u1 p1], (sequence f t2) as [u2 p2]. cbn [fst snd] in *.
  split; [exact B1|congruence].
Qed.
Lemma one_near : forall P a, follows P a.
Proof.
  intro P. induction a as [x v|x v|x e|e|x|f IH] using stmt_rect'; intros D s1 s2 H.
  - split; [apply near_put_local, H|reflexivity].
  - split; [apply near_put_global, H|reflexivity].
  - cbn [Vars_Spec.one fst snd]. rewrite (eval_near (P := P) (s1 := s1) (s2 := s2) e); [split; [apply near_put_local, H|reflexivity]| |exact H].
    intros y Hy. apply D. right. exact Hy.
  - cbn [Vars_Spec.one fst snd]. split; [exact H|]. rewrite (eval_near (P := P) (s1 := s1) (s2 := s2) e D H). reflexivity.
  - split; [apply near_put_new; [apply D; left; reflexivity|exact H]|reflexivity].
  - rewrite !one_execute. destruct (sequence_near' (s1 := [] :: s1) (s2 := [] :: s2) IH D) as [A B]; [constructor; auto|].
    destruct (sequence f ([] :: s1)), (sequence f ([] :: s2)). cbn [fst snd] in *. split; [apply near_tl, A|exact B].
Qed.
Lemma sequence_near : forall P f, (forall y, In y (flat_map (@names V) f) -> ~ P y) -> forall s1 s2, near P s1 s2 ->
  near P (fst (sequence f s1)) (fst (sequence f s2)) /\ snd (sequence f s1) = snd (sequence f s2).
Proof. intros P f. apply sequence_near'. apply Forall_forall. intros. apply one_near. Qed.

(** ... and does not change it. *)
Definition column (x : text) (s : scopes) : list (option V) := map (assoc x) s.
Definition keeps x (a : stmt) := ~ In x (names a) -> forall s, column x (fst (one a s)) = column x s.
Lemma sequence_keeps' : forall x f, Forall (keeps x) f -> ~ In x (flat_map (@names V) f) -> forall s, column x (fst (sequence f s)) = column x s.
Proof.
  induction 1 as [|a f A _ IH]; intros D s; [reflexivity|]. cbn [Vars_Spec.sequence flat_map] in *.
  specialize (A (fun I => D (in_or_app _ _ x (or_introl I))) s). destruct (one a s) as [s1 o1]. cbn [fst] in A.
  specialize (IH (fun I => D (in_or_app _ _ x (or_intror I))) s1). destruct (sequence f s1). cbn [fst] in *. congruence.
Qed.
Lemma neq_eqb : forall x y : text, x <> y -> text_eqb x y = false.
Proof. intros. apply text_eqb_neq. assumption. Qed.
Lemma one_keeps : forall x a, keeps x a.
Proof.
  intro x. induction a as [z v|z v|z e|e|z|f IH] using stmt_rect'; intros D s.
  - destruct s; [reflexivity|]. cbn. rewrite neq_eqb; [reflexivity|]. intro E. apply D. left. auto.
  - cbn [Vars_Spec.one fst]. induction s as [|g s IHs]; [reflexivity|]. destruct s; cbn [put_global column map] in *.
    + rewrite assoc_put, neq_eqb; [reflexivity|]. intro E. apply D. left. auto.
    + f_equal. exact IHs.
  - destruct s; [reflexivity|]. cbn. rewrite neq_eqb; [reflexivity|]. intro E. apply D. left. auto.
  - reflexivity.
  - destruct s as [|l s]; [reflexivity|]. cbn. destruct (assoc z l); [reflexivity|]. cbn. rewrite neq_eqb; [reflexivity|]. intro E. apply D. left. auto.
  - rewrite one_execute. pose proof (sequence_keeps' IH D ([] :: s)) as K. destruct (sequence f ([] :: s)) as [s' o]. cbn [fst] in *.
    destruct s'; [discriminate K|]. injection K as _ K. exact K.
Qed.

(** Scopes only grow. *)
Definition grows : scopes -> scopes -> Prop := Forall2 (fun a b => forall x, assoc x a <> None -> assoc x b <> None).
Lemma grows_refl : forall s, grows s s.
Proof. induction s; constructor; auto. Qed.
Lemma grows_trans : forall s1 s2, grows s1 s2 -> forall s3, grows s2 s3 -> grows s1 s3.
Proof. induction 1 as [|a b r1 r2 H _ IH]; intros s3 H3; inversion H3 as [|? c ? r3 H4 H5]; subst; constructor; [auto|apply IH; assumption]. Qed.
Lemma grows_sequence' : forall f, Forall (fun a => forall s, grows s (fst (one a s))) f -> forall s, grows s (fst (sequence f s)).
Proof.
  induction 1 as [|a f A _ IH]; intro s; [apply grows_refl|]. cbn [Vars_Spec.sequence]. specialize (A s). destruct (one a s) as [s1 o1]. cbn [fst] in A.
  specialize (IH s1). destruct (sequence f s1). cbn [fst] in *. exact (grows_trans A IH).
Qed.
Lemma grows_one : forall a s, grows s (fst (one a s)).
Proof.
  induction a as [z v|z v|z e|e|z|f IH] using stmt_rect'; intro s.
  - destruct s; cbn; constructor; [|apply grows_refl]. intros x H. cbn. destruct (text_eqb x z); [discriminate|exact H].
  - cbn [Vars_Spec.one fst]. induction s as [|g s IHs]; [constructor|]. destruct s; cbn [put_global].
    + constructor; [|constructor]. intros x H. cbn. destruct (text_eqb x z); [discriminate|exact H].
    + constructor; [auto|exact IHs].
  - destruct s; cbn; constructor; [|apply grows_refl]. intros x H. cbn. destruct (text_eqb x z); [discriminate|exact H].
  - apply grows_refl.
  - destruct s as [|l s]; cbn; [constructor|]. destruct (assoc z l); [apply grows_refl|]. constructor; [|apply grows_refl]. intros x H. cbn. destruct (text_eqb x z); [discriminate|exact H].
  - rewrite one_execute. pose proof (grows_sequence' IH ([] :: s)) as G. destruct (sequence f ([] :: s)). cbn [fst] in *. inversion G; subst. exact H3.
Qed.
Lemma grows_sequence : forall f s, grows s (fst (sequence f s)).
Proof. intros. apply grows_sequence'. apply Forall_forall. intros. apply grows_one. Qed.

(** The variables [B] have a value in the innermost scope; there are at least two scopes. *)
Definition has (B : list text) (s : scopes) : Prop := exists l g r, s = l :: g :: r /\ forall x, In x B -> assoc x l <> None.
Lemma has_grows : forall B s1 s2, has B s1 -> grows s1 s2 -> has B s2.
Proof.
  intros B s1 s2 [l [g [r [-> H]]]] G. inversion G as [|? l' ? s' G1 G2]; subst. inversion G2 as [|? g' ? r' G3 G4]; subst. exists l', g', r'. split; [reflexivity|]. auto.
Qed.
Lemma has_same : forall B s1 s2, has B s1 -> same s1 s2 -> has B s2.
Proof.
  intros B s1 s2 H S. apply (has_grows H). clear H. induction S as [|a b r1 r2 H _ IH]; constructor; auto. intros z N. rewrite <- H; auto.
Qed.

(** Results up to the order of entries. *)
Definition alike (p q : scopes * list V) : Prop := same (fst p) (fst q) /\ snd p = snd q.
Lemma alike_refl : forall p, alike p p.
Proof. intro p. split; [apply near_refl|reflexivity]. Qed.
Lemma alike_trans : forall p q r, alike p q -> alike q r -> alike p r.
Proof. intros p q r [A B] [C D]. split; [exact (near_trans A C)|congruence]. Qed.
Lemma alike_sym : forall p q, alike p q -> alike q p.
Proof. intros p q [A B]. split; [apply near_sym, A|auto]. Qed.
Lemma same_sequence : forall f s1 s2, same s1 s2 -> alike (sequence f s1) (sequence f s2).
Proof. intros f s1 s2 H. apply sequence_near; auto. Qed.
Lemma alike_app : forall f f' g g' s, alike (sequence f s) (sequence f' s) ->
  alike (sequence g (fst (sequence f' s))) (sequence g' (fst (sequence f' s))) -> alike (sequence (f ++ g) s) (sequence (f' ++ g') s).
Proof.
  intros f f' g g' s [A B] C. rewrite !sequence_app. destruct (sequence f s) as [s1 o1], (sequence f' s) as [s2 o2]. cbn [fst snd] in *.
  pose proof (alike_trans (same_sequence g A) C) as [D E]. destruct (sequence g s1), (sequence g' s2). cbn [fst snd] in *. split; [exact D|]. cbn [snd]. congruence.
Qed.

(** ** Moving a statement that is done early before another one *)
Definition is_early (b : stmt) : Prop := match b with SetLit _ _ | SetGlobal _ _ | Declare _ => True | _ => False end.
Lemma early_off : forall b s, is_early b -> near (eq (target b)) s (fst (one b s)).
Proof.
  intros [x v|x v|x e|e|f|x] s H; try contradiction; cbn [target Vars_Spec.one fst].
  - destruct s; cbn; constructor; [|apply near_refl]. intros y N. cbn. rewrite neq_eqb; auto.
  - induction s as [|g s IH]; [constructor|]. destruct s; cbn [put_global]; constructor; auto. intros y N. cbn. rewrite neq_eqb; auto.
  - destruct s as [|l s]; cbn; [constructor|]. destruct (assoc x l); [apply near_refl|]. constructor; [|apply near_refl]. intros y N. cbn. rewrite neq_eqb; auto.
Qed.
Lemma early_column : forall b s1 s2, is_early b -> column (target b) s1 = column (target b) s2 -> column (target b) (fst (one b s1)) = column (target b) (fst (one b s2)).
Proof.
  intros [x v|x v|x e|e|f|x] s1 s2 H E; try contradiction; cbn [target Vars_Spec.one fst] in *.
  - destruct s1, s2; try discriminate E; [reflexivity|]. cbn in *. rewrite text_eqb_refl. congruence.
  - revert s2 E. induction s1 as [|g1 s1 IH]; intros [|g2 s2] E; try discriminate E; [reflexivity|].
    injection E as E1 E2. specialize (IH s2 E2). destruct s1, s2; try discriminate E2; cbn [put_global column map] in *.
    + rewrite !assoc_put, text_eqb_refl. reflexivity.
    + congruence.
  - destruct s1 as [|l1 s1], s2 as [|l2 s2]; try discriminate E; [reflexivity|]. cbn in *. injection E as E1 E2. rewrite E1. destruct (assoc x l2) eqn:A; cbn.
    + rewrite E1, A, E2. reflexivity.
    + rewrite text_eqb_refl, E2. reflexivity.
Qed.
Lemma near_column : forall x s1 s2, near (eq x) s1 s2 -> column x s1 = column x s2 -> same s1 s2.
Proof.
  intros x s1 s2. induction 1 as [|a b s1 s2 H _ IH]; intro E; [constructor|]. injection E as E1 E2. constructor; [|apply IH, E2].
  intros y _. destruct (text_eq_dec x y) as [<-|N]; [exact E1|auto].
Qed.
Lemma early_silent : forall b s, is_early b -> snd (one b s) = [].
Proof. intros [] s H; try contradiction; reflexivity. Qed.
Lemma swap : forall b a s, is_early b -> ~ In (target b) (names a) -> alike (sequence [b; a] s) (sequence [a; b] s).
Proof.
  intros b a s B N. cbn [Vars_Spec.sequence]. rewrite (surjective_pairing (one b s)), (surjective_pairing (one a s)). 
  rewrite (surjective_pairing (one a (fst (one b s)))), (surjective_pairing (one b (fst (one a s)))). rewrite !early_silent by exact B. rewrite !app_nil_r. cbn [app].
  assert (D : forall y, In y (names a) -> target b <> y) by (intros y Hy <-; contradiction).
  destruct (one_near a (P := eq (target b)) D (early_off b s B)) as [N1 O1]. split; cbn [fst snd]; [|rewrite (early_silent b (fst (one a s)) B), app_nil_r; auto].
  apply (near_column (x := target b)).
  - apply near_sym. apply (near_trans (near_sym (early_off b (fst (one a s)) B))). exact N1.
  - rewrite (@one_keeps (target b) a N). apply early_column; [exact B|]. symmetry. apply one_keeps, N.
Qed.
Lemma declare_bound : forall B x s, has B s -> In x B -> one (Declare x) s = (s, []).
Proof.
  intros B x s [l [g [r [-> H]]]] I. cbn [Vars_Spec.one Vars_Spec.put_new]. specialize (H x I). destruct (assoc x l); [reflexivity|congruence].
Qed.
Lemma swap_all : forall a B bs, (forall b, In b bs -> is_early b /\ (~ In (target b) (names a) \/ exists x, b = Declare x /\ In x B)) ->
  forall s, has B s -> alike (sequence (bs ++ [a]) s) (sequence (a :: bs) s).
Proof.
  intros a B. induction bs as [|b bs IH]; intros H s HB; [apply alike_refl|].
  destruct (H b (or_introl eq_refl)) as [E C].
  apply alike_trans with (sequence ([b; a] ++ bs) s).
  - change ((b :: bs) ++ [a]) with ([b] ++ (bs ++ [a])). change ([b; a] ++ bs) with ([b] ++ (a :: bs)). apply alike_app; [apply alike_refl|].
    apply IH; [intros; apply H; right; assumption|]. apply (has_grows HB). apply grows_sequence.
  - change (a :: b :: bs) with ([a; b] ++ bs). apply alike_app; [|apply alike_refl]. destruct C as [C|[x [-> I]]]; [apply swap; assumption|].
    cbn [Vars_Spec.sequence]. rewrite (declare_bound x HB I). rewrite (surjective_pairing (one a s)).
    rewrite (declare_bound x (has_grows HB (grows_one a s)) I). cbn [app]. rewrite app_nil_r. apply alike_refl.
Qed.

(** ** The theorem *)
Scheme fine_mut := Induction for fine Sort Prop with ordered_mut := Induction for ordered Sort Prop.
Lemma globals_early : forall a b : stmt, In b (globals a) -> is_early b.
Proof.
  induction a as [x v|x v|x e|e|x|f IH] using stmt_rect'; intros b H; cbn in H; try contradiction.
  - destruct H as [<-|[]]. exact I.
  - apply in_flat_map in H. destruct H as [a [A H]]. rewrite Forall_forall in IH. exact (IH a A b H).
Qed.
Lemma early_early : forall f b, In b (flat_map (@early V) f) -> is_early b.
Proof.
  intros f b H. apply in_flat_map in H. destruct H as [a [_ H]]. apply in_app_or in H. destruct H as [H|H]; [|exact (globals_early _ _ H)].
  destruct a; cbn in H; try contradiction; destruct H as [<-|[]]; exact I.
Qed.
Lemma names_globals : forall a y, In y (flat_map (@names V) (globals a)) -> In y (names a).
Proof.
  induction a as [x v|x v|x e|e|x|f IH] using stmt_rect'; intros y H; cbn in H; try contradiction; [exact H|].
  cbn [names]. rewrite Forall_forall in IH. apply in_flat_map in H. destruct H as [b [Hb Hy]]. apply in_flat_map in Hb. destruct Hb as [a [A Hb]].
  apply in_flat_map. exists a. split; [exact A|]. apply (IH a A). apply in_flat_map. eauto.
Qed.
Lemma names_late : forall a y, In y (flat_map (@names V) (late a)) -> In y (names a).
Proof.
  induction a as [x v|x v|x e|e|x|f IH] using stmt_rect'; intros y H; cbn [late flat_map] in H; rewrite ?app_nil_r in H; try exact H; try contradiction.
  cbn [names] in *. rewrite flat_map_app in H. apply in_flat_map. apply in_app_or in H. rewrite Forall_forall in IH. destruct H as [H|H]; apply in_flat_map in H; destruct H as [b [Hb Hy]];
    apply in_flat_map in Hb; destruct Hb as [a [A Hb]]; exists a; (split; [exact A|]).
  - destruct a; cbn in Hb; try contradiction; destruct Hb as [<-|[]]; cbn in Hy; destruct Hy as [<-|[]]; left; reflexivity.
  - apply (IH a A). apply in_flat_map. eauto.
Qed.
Lemma late_one : forall a : stmt, late a = [] \/ exists a', late a = [a'] /\ forall y, In y (names a') -> In y (names a).
Proof.
  intro a. assert (C : late a = [] \/ exists a', late a = [a']) by (destruct a; cbn; eauto). destruct C as [C|[a' C]]; [auto|right].
  exists a'. split; [exact C|]. intros y H. apply (names_late a). rewrite C. cbn [flat_map]. rewrite app_nil_r. exact H.
Qed.
Lemma has_early : forall B a s, has B s -> has (writes a ++ B) (fst (sequence (early a) s)).
Proof.
  intros B a s [l [g [r [-> H]]]]. pose proof (early_seq null [a] l (s := g :: r) ltac:(discriminate)) as E. cbn [flat_map] in E. rewrite app_nil_r in E. rewrite E. cbn [fst].
  pose proof (@glob_nil V null [a] (g :: r) ltac:(discriminate)) as N. destruct (glob null [a] (g :: r)) as [|g' r']; [congruence|].
  exists (own null [a] l), g', r'. split; [reflexivity|]. intros x I. unfold own. cbn [fold_left]. apply in_app_or in I. destruct I as [I|I].
  - destruct a; cbn in I; try contradiction; destruct I as [<-|[]]; cbn [own1]; rewrite ?assoc_put, ?text_eqb_refl; try discriminate; destruct (assoc x0 l) eqn:A; rewrite ?assoc_put, ?text_eqb_refl; congruence.
  - specialize (H x I). destruct a; cbn [own1]; auto; try (destruct (assoc x0 l); auto); rewrite assoc_put; destruct (text_eqb x x0); auto; discriminate.
Qed.
Theorem ordered_alike : forall B f, ordered B f -> forall s, has B s -> alike (sequence (hoist f) s) (sequence f s).
Proof.
  apply (ordered_mut (V := V) (fun B a _ => forall s, has B s -> alike (sequence (early a ++ late a) s) (sequence [a] s))
                     (fun B f _ => forall s, has B s -> alike (sequence (hoist f) s) (sequence f s))).
  - intros. apply alike_refl.
  - intros. apply alike_refl.
  - intros B x e C s H. change (early (SetExpr x e) ++ late (SetExpr x e)) with [Declare x; SetExpr x e]. cbn [Vars_Spec.sequence].
    destruct C as [C|C]; [rewrite (declare_bound x H C); apply alike_refl|]. cbn [Vars_Spec.one app]. split; [|reflexivity]. cbn [fst].
    rewrite <- (eval_near (P := eq x) (s1 := s) (s2 := put_new x s) e); [|intros y Hy <-; contradiction|exact (early_off (Declare x) s I)].
    destruct H as [l [g [r [-> _]]]]. cbn [Vars_Spec.put_new put_local]. destruct (assoc x l); [apply near_refl|]. constructor; [|apply near_refl].
    intros y _. rewrite !assoc_put. destruct (text_eqb y x); reflexivity.
  - intros. apply alike_refl.
  - intros. apply alike_refl.
  - intros B f _ IH s H. change (early (Execute f) ++ late (Execute f)) with (flat_map (@globals V) f ++ [Execute (flat_map (@locals V) f ++ flat_map (@late V) f)]).
    rewrite sequence_app, glob_seq. cbn [Vars_Spec.sequence]. rewrite !one_execute, sequence_app, locals_seq.
    assert (H0 : has [] ([] :: s)) by (destruct H as [l [g [r [-> _]]]]; exists [], l, (g :: r); split; [reflexivity|intros ? []]).
    specialize (IH _ H0). unfold hoist in IH. rewrite sequence_app in IH. destruct H as [l [g [r [-> _]]]]. pose proof (early_seq null f [] (s := l :: g :: r) ltac:(discriminate)) as ES.
    match type of ES with ?L = _ => match type of IH with context [sequence (flat_map (@early V) f) ?X] => change (sequence (flat_map (@early V) f) X) with L in IH end end.
    rewrite ES in IH.
    destruct (sequence (flat_map (@late V) f) (own null f [] :: glob null f (l :: g :: r))) as [s1 o1], (sequence f ([] :: l :: g :: r)) as [s2 o2].
    destruct IH as [I1 I2]. cbn [fst snd app] in *. split; cbn [fst snd]; [apply near_tl, I1|congruence].
  - intros. apply alike_refl.
  - intros B a r _ IHa C _ IHr s H.
    assert (E : alike (sequence (early a ++ late a ++ flat_map (@early V) r ++ flat_map (@late V) r) s) (sequence (a :: r) s)).
    { rewrite app_assoc. change (a :: r) with ([a] ++ r). apply alike_app; [exact (IHa s H)|]. apply IHr.
      pose proof (has_early a H) as HE. apply (has_same (s1 := fst (sequence (early a ++ late a) s))); [|apply IHa, H].
      rewrite sequence_app. pose proof (grows_sequence (late a) (fst (sequence (early a) s))) as G. destruct (sequence (early a) s) as [s1 o1]. cbn [fst] in *.
      destruct (sequence (late a) s1). cbn [fst] in *. exact (has_grows HE G). }
    apply (fun X => alike_trans X E). unfold hoist. cbn [flat_map]. rewrite <- !app_assoc. apply alike_app; [apply alike_refl|]. rewrite !app_assoc. apply alike_app; [|apply alike_refl].
    destruct (late_one a) as [L|[a' [L N]]]; rewrite L; [rewrite app_nil_r; apply alike_refl|].
    apply (@swap_all a' (writes a ++ B)); [|apply has_early, H]. intros b Hb. split; [exact (early_early _ _ Hb)|].
    destruct C as [C|C]; [congruence|]. destruct (C b Hb) as [D|D]; [left; intro F; apply D, N, F|right; exact D].
Qed.
End Order.

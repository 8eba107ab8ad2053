(** Variables in scripts: property theorems (C90, C91, C92). *)
From Verif Require Import Base Vars_Spec Vars_Model Vars_Proofs Vars_Order.
Set Implicit Arguments.

Section Props.
Variable V : Type.
Variable null : V.
Notation stmt := (stmt V). Notation scope := (scope V). Notation scopes := (scopes V).

Lemma alike_result : forall p q : scopes * list V, alike p q -> same_result p q.
Proof. intros p q [A B]. split; [exact B|]. induction A; constructor; auto. Qed.

(** ** C90: a script is the sequence of its statements *)
(** What a script does, for every script: first the SETs of literals, the SET GLOBALs (those in executed files too) and the declarations of all
    its statements, then the rest. *)
Theorem script_reads_first : forall f (l : scope) s, s <> [] -> script null f (l :: s) = sequence null (hoist f) (l :: s).
Proof. apply script_exact. Qed.

(** Scripts that do not use a variable before its SET behave as the sequence of their statements. *)
Theorem script_sequential : forall B f (l : scope) s, s <> [] -> ordered B f -> (forall x, In x B -> assoc x l <> None) ->
  same_result (script null f (l :: s)) (sequence null f (l :: s)).
Proof.
  intros B f l s N O H. rewrite script_exact by exact N. apply alike_result. eapply ordered_alike; [exact O|].
  destruct s as [|g r]; [congruence|]. exists l, g, r. auto.
Qed.

(** ** C91: statements submitted one at a time *)
Theorem one_by_one_sequential : forall f B (l : scope) s, s <> [] -> each_fine B f -> (forall x, In x B -> assoc x l <> None) ->
  same_result (one_by_one null f (l :: s)) (sequence null f (l :: s)).
Proof.
  intros f B l s N O H. apply alike_result.
  assert (HB : has B (l :: s)) by (destruct s as [|g r]; [congruence|]; exists l, g, r; auto). clear N H. revert B O HB. generalize (l :: s). clear l s.
  induction f as [|a f IH]; intros s B O HB; [apply alike_refl|]. destruct O as [F O]. cbn [one_by_one sequence].
  assert (OA : ordered B [a]).
  { constructor; [exact F| |constructor]. right. intros b []. }
  assert (A : alike (script null [a] s) (sequence null [a] s)).
  { destruct HB as [l [g [r [-> HB]]]]. rewrite script_exact by discriminate. eapply ordered_alike; [exact OA|]. exists l, g, r. auto. }
  assert (HN : has (writes a ++ B) (fst (one null a s))).
  { pose proof (has_early null a HB) as HE.
    pose proof (ordered_alike null OA HB) as [S _]. cbn [sequence] in S. unfold hoist in S. cbn [flat_map] in S. rewrite !app_nil_r in S.
    rewrite sequence_app in S. pose proof (grows_sequence null (late a) (fst (sequence null (early a) s))) as G.
    destruct (sequence null (early a) s) as [s1 o1]. cbn [fst] in *. destruct (sequence null (late a) s1) as [s2 o2]. cbn [fst] in *.
    destruct (one null a s) as [s3 o3]. cbn [fst] in *. exact (has_same (has_grows HE G) S). }
  cbn [sequence] in A. destruct (one null a s) as [s1 o1]. cbn [fst] in HN. destruct (script null [a] s) as [s1' o1']. destruct A as [A1 A2]. cbn [fst snd] in *. rewrite app_nil_r in A2.
  pose proof (IH s1' _ O (has_same HN (near_sym A1))) as I. pose proof (alike_trans I (same_sequence null f A1)) as [J1 J2].
  destruct (one_by_one null f s1'), (sequence null f s1). cbn [fst snd] in *. split; cbn [fst snd]; [exact J1|congruence].
Qed.

(** ** C92: an executed file has its own variables *)
Lemma no_globals : forall a : stmt, global_names a = [] -> globals a = [].
Proof.
  induction a as [x v|x v|x e|e|x|f IH] using stmt_rect'; intro H; try reflexivity; [discriminate|]. cbn in *.
  induction IH as [|a f A _ IHf]; [reflexivity|]. cbn in *. apply app_eq_nil in H. destruct H as [H1 H2]. rewrite (A H1), (IHf H2). reflexivity.
Qed.
(** Everything but the innermost and the global scope is kept by each statement, and global variables without SET GLOBAL too. *)
Definition outer (D : text -> Prop) (s1 s2 : scopes) : Prop :=
  length s1 = length s2 /\ removelast s1 = removelast s2 /\ forall x, ~ D x -> assoc x (last s1 []) = assoc x (last s2 []).
Definition below (D : text -> Prop) (s1 s2 : scopes) : Prop := length s1 = length s2 /\ outer D (tl s1) (tl s2).
Lemma outer_refl : forall D s, outer D s s.
Proof. intros. repeat split. Qed.
Lemma outer_trans : forall D s1 s2 s3, outer D s1 s2 -> outer D s2 s3 -> outer D s1 s3.
Proof. intros D s1 s2 s3 [A [B C]] [A' [B' C']]. repeat split; [congruence|congruence|]. intros x H. rewrite C, C' by auto. reflexivity. Qed.
Lemma outer_tl : forall D s1 s2, outer D s1 s2 -> outer D (tl s1) (tl s2).
Proof.
  intros D s1 s2 [A [B C]]. destruct s1 as [|a s1], s2 as [|b s2]; try discriminate A; [repeat split|]. injection A as A. cbn [tl].
  destruct s1 as [|a1 s1], s2 as [|b1 s2]; try discriminate A; [repeat split|]. 
  change (a :: removelast (a1 :: s1) = b :: removelast (b1 :: s2)) in B. injection B as _ B. repeat split; [exact A|exact B|]. intros x H. apply C in H. exact H.
Qed.
Lemma below_trans : forall D s1 s2 s3, below D s1 s2 -> below D s2 s3 -> below D s1 s3.
Proof. intros D s1 s2 s3 [A B] [A' B']. split; [congruence|exact (outer_trans B B')]. Qed.
Lemma put_global_length : forall x v (s : scopes), length (put_global x v s) = length s.
Proof. induction s as [|g s IH]; [reflexivity|]. destruct s; [reflexivity|]. cbn [put_global length] in *. f_equal. exact IH. Qed.
Lemma put_global_outer : forall (D : text -> Prop) x v (s : scopes), D x -> outer D s (put_global x v s).
Proof.
  intros D x v s HD. induction s as [|g s IH]; [apply outer_refl|]. destruct s as [|h s].
  - repeat split. intros y N. cbn [put_global last]. rewrite assoc_put, neq_eqb; [reflexivity|]. intros ->. contradiction.
  - change (put_global x v (g :: h :: s)) with (g :: put_global x v (h :: s)). destruct IH as [A [B C]].
    destruct (put_global x v (h :: s)) as [|k r]; [discriminate A|]. repeat split.
    + cbn [length] in *. congruence.
    + change (g :: removelast (h :: s) = g :: removelast (k :: r)). congruence.
    + exact C.
Qed.
Lemma below_local : forall D (a b : scope) s, below D (a :: s) (b :: s).
Proof. intros D a b s. split; [reflexivity|apply outer_refl]. Qed.
Lemma below_sequence : forall f s, (forall a : stmt, In a f -> forall (D : text -> Prop) s, (forall x, In x (global_names a) -> D x) -> below D s (fst (one null a s))) ->
  forall D : text -> Prop, (forall x, In x (flat_map (@global_names V) f) -> D x) -> below D s (fst (sequence null f s)).
Proof.
  induction f as [|a f IH]; intros s H D HD; [split; [reflexivity|apply outer_refl]|]. cbn [sequence flat_map] in *.
  pose proof (H a (or_introl eq_refl) D s (fun x I => HD x (in_or_app _ _ x (or_introl I)))) as A. destruct (one null a s) as [s1 o1]. cbn [fst] in A.
  specialize (IH s1 (fun a I => H a (or_intror I)) D (fun x I => HD x (in_or_app _ _ x (or_intror I)))). destruct (sequence null f s1). cbn [fst] in *. exact (below_trans A IH).
Qed.
Lemma execute_outer : forall f, (forall s (D : text -> Prop), (forall x, In x (flat_map (@global_names V) f) -> D x) -> below D s (fst (sequence null f s))) ->
  forall (D : text -> Prop) s, (forall x, In x (flat_map (@global_names V) f) -> D x) -> outer D s (fst (one null (Execute f) s)).
Proof.
  intros f H D s HD. rewrite one_execute. specialize (H ([] :: s) D HD). destruct (sequence null f ([] :: s)) as [s' o]. cbn [fst] in *. exact (proj2 H).
Qed.
Lemma below_one : forall (a : stmt) (D : text -> Prop) s, (forall x, In x (global_names a) -> D x) -> below D s (fst (one null a s)).
Proof.
  induction a as [z v|z v|z e|e|z|f IH] using stmt_rect'; intros D s HD.
  - destruct s; [split; [reflexivity|apply outer_refl]|apply below_local].
  - cbn [one fst]. split; [symmetry; apply put_global_length|]. apply outer_tl, put_global_outer, HD. left. reflexivity.
  - destruct s; [split; [reflexivity|apply outer_refl]|apply below_local].
  - split; [reflexivity|apply outer_refl].
  - cbn [one fst]. destruct s as [|l s]; [split; [reflexivity|apply outer_refl]|]. cbn [put_new]. destruct (assoc z l); [split; [reflexivity|apply outer_refl]|apply below_local].
  - rewrite Forall_forall in IH. pose proof (@execute_outer f (fun s D HD => below_sequence f s IH D HD) D s HD) as O. split; [apply O|apply outer_tl, O].
Qed.
Lemma below_all : forall f s (D : text -> Prop), (forall x, In x (flat_map (@global_names V) f) -> D x) -> below D s (fst (sequence null f s)).
Proof. intros f s D HD. apply below_sequence; [|exact HD]. intros a _ D' s' H. apply below_one, H. Qed.

(** What is left of a statement sets no global variables. *)
Lemma late_globals : forall a : stmt, flat_map (@global_names V) (late a) = [].
Proof.
  induction a as [x v|x v|x e|e|x|f IH] using stmt_rect'; try reflexivity. cbn [late flat_map global_names]. rewrite app_nil_r, flat_map_app.
  assert (A : flat_map (@global_names V) (flat_map (@locals V) f) = []).
  { clear IH. induction f as [|a f IHf]; [reflexivity|]. cbn [flat_map]. rewrite flat_map_app, IHf, app_nil_r. destruct a; reflexivity. }
  rewrite A. cbn [app]. induction IH as [|a f H _ IHf]; [reflexivity|]. cbn [flat_map] in *. rewrite flat_map_app, H. apply IHf.
  rewrite flat_map_app in A. apply app_eq_nil in A. apply A.
Qed.
Lemma globals_outer : forall (D : text -> Prop) (l : list stmt) s, Forall (fun a => exists x v, a = SetGlobal x v /\ D x) l -> outer D s (fst (sequence null l s)).
Proof.
  intros D l s F. revert s. induction F as [|a l [x [v [-> H]]] _ IH]; intro s; [apply outer_refl|]. cbn [sequence one].
  specialize (IH (put_global x v s)). destruct (sequence null l (put_global x v s)). cbn [fst] in *. exact (outer_trans (@put_global_outer D x v s H) IH).
Qed.
Lemma globals_shape : forall (D : text -> Prop) (a : stmt), (forall x, In x (global_names a) -> D x) -> Forall (fun a => exists x v, a = SetGlobal x v /\ D x) (globals a).
Proof.
  intros D. induction a as [x v|x v|x e|e|x|f IH] using stmt_rect'; intro H; cbn [globals]; try constructor; [|constructor|].
  - exists x, v. split; [reflexivity|]. apply H. left. reflexivity.
  - cbn [global_names] in H. induction IH as [|a f A _ IHf]; [constructor|]. cbn [flat_map] in *. apply Forall_app. split.
    + apply A. intros x I. apply H, in_or_app. auto.
    + apply IHf. intros x I. apply H, in_or_app. auto.
Qed.

(** Executing a file: the variables of the innermost and of all other scopes are those before, except for the variables set GLOBAL in the file. *)
Theorem execute_own_variables : forall f (s : scopes), 2 <= length s ->
  exists s' g g' o, s = s' ++ [g] /\ script null [Execute f] s = (s' ++ [g'], o) /\
    forall x, ~ In x (flat_map (@global_names V) f) -> assoc x g' = assoc x g.
Proof.
  intros f s L. destruct s as [|l s]; [cbn in L; lia|]. assert (N : s <> []) by (intros ->; cbn in L; lia).
  rewrite script_exact by exact N. unfold hoist. cbn [flat_map]. rewrite !app_nil_r. change (early (Execute f)) with (globals (Execute f)).
  set (D := fun x => In x (flat_map (@global_names V) f)).
  assert (O : outer D (l :: s) (fst (sequence null (globals (Execute f) ++ late (Execute f)) (l :: s)))).
  { rewrite sequence_app. assert (G : outer D (l :: s) (fst (sequence null (globals (Execute f)) (l :: s)))) by (apply globals_outer, globals_shape; auto).
    destruct (sequence null (globals (Execute f)) (l :: s)) as [s1 o1]. cbn [fst] in G. apply (outer_trans G). cbn [late sequence].
    pose proof (late_globals (Execute f)) as LG. cbn [late flat_map global_names] in LG. rewrite app_nil_r in LG.
    assert (E : outer D s1 (fst (one null (Execute (flat_map (@locals V) f ++ flat_map (@late V) f)) s1))).
    { apply execute_outer; [intros; apply below_all; assumption|]. rewrite LG. intros x []. }
    destruct (one null (Execute (flat_map (@locals V) f ++ flat_map (@late V) f)) s1) as [s2 o2]. exact E. }
  destruct (sequence null (globals (Execute f) ++ late (Execute f)) (l :: s)) as [s2 o2]. cbn [fst] in O. destruct O as [A [B C]].
  assert (N2 : s2 <> []) by (intros ->; discriminate A).
  exists (removelast (l :: s)), (last (l :: s) []), (last s2 []), o2. split; [apply app_removelast_last; discriminate|]. split.
  - rewrite B. f_equal. apply app_removelast_last, N2.
  - intros x I. symmetry. apply C, I.
Qed.

(** Without SET GLOBAL nothing but the innermost scope changes. *)
Definition quiet (a : stmt) := global_names a = [] -> forall l s, exists l', fst (one null a (l :: s)) = l' :: s.
Lemma quiet_sequence : forall f, Forall quiet f -> flat_map (@global_names V) f = [] -> forall l s, exists l', fst (sequence null f (l :: s)) = l' :: s.
Proof.
  induction 1 as [|a f A _ IH]; intros G l s; [exists l; reflexivity|]. cbn [flat_map sequence] in *. apply app_eq_nil in G. destruct G as [G1 G2].
  destruct (A G1 l s) as [l1 E1]. destruct (one null a (l :: s)) as [s1 o1]. cbn [fst] in E1. subst s1. destruct (IH G2 l1 s) as [l2 E2].
  destruct (sequence null f (l1 :: s)) as [s2 o2]. exists l2. exact E2.
Qed.
Lemma quiet_execute : forall f, Forall quiet f -> flat_map (@global_names V) f = [] -> forall s, fst (one null (Execute f) s) = s.
Proof.
  intros f Q G s. rewrite one_execute. destruct (quiet_sequence Q G [] s) as [l' E].
  match type of E with fst ?L = _ => match goal with |- context [sequence null f ?X] => change (sequence null f X) with L end; destruct L as [s' o] end. cbn [fst] in *. subst s'. reflexivity.
Qed.
Lemma quiet_all : forall a, quiet a.
Proof.
  induction a as [z v|z v|z e|e|z|f IH] using stmt_rect'; intros G l s; try (eexists; reflexivity); [discriminate G| |].
  - cbn [one put_new fst]. destruct (assoc z l); eexists; reflexivity.
  - exists l. apply quiet_execute; assumption.
Qed.

(** In a script, too: EXECUTE of a file that sets no global variable leaves all variables, and all values shown by the other statements, as they
    are without it. *)
Theorem execute_leaves_no_trace : forall p f q (s : scopes), 2 <= length s -> flat_map (@global_names V) f = [] ->
  fst (script null (p ++ Execute f :: q) s) = fst (script null (p ++ q) s) /\
  exists o1 o o2, snd (script null (p ++ q) s) = o1 ++ o2 /\ snd (script null (p ++ Execute f :: q) s) = o1 ++ o ++ o2.
Proof.
  intros p f q s L G. destruct s as [|l s]; [cbn in L; lia|]. assert (N : s <> []) by (intros ->; cbn in L; lia).
  rewrite !script_exact by exact N. unfold hoist. rewrite !flat_map_app. cbn [flat_map].
  assert (E : early (Execute f) = []) by exact (no_globals (Execute f) G). rewrite E. cbn [app]. rewrite <- (flat_map_app (@early V)). rewrite !sequence_app.
  destruct (sequence null (flat_map (@early V) (p ++ q)) (l :: s)) as [s1 o1]. rewrite !(sequence_app null (flat_map (@late V) p)).
  destruct (sequence null (flat_map (@late V) p) s1) as [s2 o2]. rewrite (sequence_app null (late (Execute f))).
  assert (X : fst (sequence null (late (Execute f)) s2) = s2).
  { pose proof (late_globals (Execute f)) as LG. cbn [late flat_map global_names] in LG. rewrite app_nil_r in LG. cbn [late sequence].
    pose proof (@quiet_execute (flat_map (@locals V) f ++ flat_map (@late V) f)) as Q. specialize (Q ltac:(apply Forall_forall; intros; apply quiet_all) LG s2).
    destruct (one null (Execute (flat_map (@locals V) f ++ flat_map (@late V) f)) s2) as [s3 o3]. exact Q. }
  destruct (sequence null (late (Execute f)) s2) as [s3 o]. cbn [fst] in X. subst s3.
  destruct (sequence null (flat_map (@late V) q) s2) as [s4 o4]. cbn [fst snd]. split; [reflexivity|].
  exists (o1 ++ o2), o, o4. split; rewrite <- ?app_assoc; reflexivity.
Qed.
End Props.

(** ** Counterexamples, and cases that meet the hypotheses *)
Definition va : text := t "@a".
Definition plus (x y : option Z) : option Z := match x, y with Some a, Some b => Some (a + b)%Z | _, _ => None end.
Definition inc (x : text) : expr (option Z) := EOp plus (EVar x) (EConst (Some 1%Z)).

(** SET @a = 1; SELECT @a; SET @a = 2: the query shows 2. *)
Theorem script_sequential_refuted : exists f : list (stmt (option Z)),
  snd (sequence None f [[]; []]) = [Some 1%Z] /\ snd (script None f [[]; []]) = [Some 2%Z].
Proof. exists [SetLit va (Some 1%Z); Query (EVar va); SetLit va (Some 2%Z)]. split; reflexivity. Qed.

(** SET @a = 1, then EXECUTE of a file with SET @a = @a + 1; SELECT @a: the query shows NULL, not 2, even when the statements are submitted
    one at a time. *)
Theorem one_by_one_sequential_refuted : exists f : list (stmt (option Z)),
  snd (sequence None f [[]; []]) = [Some 2%Z] /\ snd (one_by_one None f [[]; []]) = [None].
Proof. exists [SetLit va (Some 1%Z); Execute [SetExpr va (inc va); Query (EVar va)]]. split; reflexivity. Qed.

(** A script with a counter set twice, a file and a query between: its statements are ordered. *)
Definition vb : text := t "@b".
Definition sample : list (stmt (option Z)) :=
  [SetLit va (Some 1%Z); SetExpr va (inc va); Query (EVar va); SetExpr vb (inc va); SetExpr va (inc vb);
   Execute [SetLit vb (Some 7%Z); SetExpr vb (inc vb); Query (EOp plus (EVar va) (EVar vb))]; Query (EVar vb)].
Example sample_ordered : ordered [] sample.
Proof.
  unfold sample. constructor; [constructor|left; reflexivity|].
  constructor; [constructor; left; left; reflexivity| |].
  { right. intros b Hb. cbn in Hb. destruct Hb as [<-|[<-|[]]]; [left; cbn; intros [H|[H|[]]]; discriminate H|right; exists va; split; [reflexivity|left; reflexivity]]. }
  constructor; [constructor| |].
  { right. intros b Hb. cbn in Hb. destruct Hb as [<-|[<-|[]]]; [left; cbn; intros [H|[]]; discriminate H|right; exists va; split; [reflexivity|left; reflexivity]]. }
  constructor; [constructor; right; cbn; intros [H|[]]; discriminate H| |].
  { right. intros b Hb. cbn in Hb. destruct Hb as [<-|[]]. right. exists va. split; [reflexivity|right; left; reflexivity]. }
  constructor; [constructor; left; right; left; reflexivity|right; intros b []|].
  constructor; [|right; intros b []|].
  { constructor. constructor; [constructor|left; reflexivity|]. constructor; [constructor; left; left; reflexivity|right; intros b []|].
    constructor; [constructor|right; intros b []|constructor]. }
  constructor; [constructor|right; intros b []|constructor].
Qed.
Example sample_shows : snd (script None sample [[]; []]) = [Some 2%Z; Some 12%Z; Some 3%Z].
Proof. reflexivity. Qed.
Example sample_each : each_fine [] sample.
Proof.
  split; [constructor|]. split; [constructor; left; left; reflexivity|]. split; [constructor|].
  split; [constructor; right; cbn; intros [H|[]]; discriminate H|]. split; [constructor; left; right; left; reflexivity|].
  split; [|split; [constructor|exact I]].
  constructor. constructor; [constructor|left; reflexivity|]. constructor; [constructor; left; left; reflexivity|right; intros b []|].
  constructor; [constructor|right; intros b []|constructor].
Qed.
(** A file that sets a variable of its own and a global one. *)
Example file_example : script None [Execute [SetLit va (Some 5%Z); SetGlobal vb (Some 6%Z); Query (EOp plus (EVar va) (EVar vb))]] [[(va, Some 1%Z)]; []]
  = ([[(va, Some 1%Z)]; [(vb, Some 6%Z)]], [Some 11%Z]).
Proof. reflexivity. Qed.

Print Assumptions script_reads_first.
Print Assumptions script_sequential.
Print Assumptions script_sequential_refuted.
Print Assumptions one_by_one_sequential.
Print Assumptions one_by_one_sequential_refuted.
Print Assumptions execute_own_variables.
Print Assumptions execute_leaves_no_trace.

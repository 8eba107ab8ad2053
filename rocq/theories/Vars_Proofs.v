(** The two phases of a script against the sequence of its statements. *)
From Verif Require Import Base Vars_Spec Vars_Model.
Set Implicit Arguments.

Section Proofs.
Variable V : Type.
Variable null : V.
Notation stmt := (stmt V). Notation expr := (expr V). Notation scope := (scope V). Notation scopes := (scopes V).
Notation one := (one null). Notation sequence := (sequence null). Notation start := (start null). Notation start_all := (start_all null).
Notation perform := (perform null). Notation perform_all := (perform_all null). Notation eval := (eval null). Notation put_new := (put_new null).

(** Induction over statements through executed files. *)
Lemma stmt_rect' : forall (P : stmt -> Prop), (forall x v, P (SetLit x v)) -> (forall x v, P (SetGlobal x v)) -> (forall x e, P (SetExpr x e)) ->
  (forall e, P (Query e)) -> (forall x, P (Declare x)) -> (forall f, Forall P f -> P (Execute f)) -> forall a, P a.
Proof.
  intros P H1 H2 H3 H4 H5 H6. fix IH 1. intros [x v|x v|x e|e|f|x]; [apply H1|apply H2|apply H3|apply H4| |apply H5]. apply H6. induction f as [|a f IHf]; constructor; [apply IH|exact IHf].
Qed.

Lemma one_execute : forall f s, one (Execute f) s = (let (s', o) := sequence f ([] :: s) in (tl s', o)).
Proof. reflexivity. Qed.
Lemma start_execute : forall f s, start (Execute f) s =
  match start_all f ([] :: s) with (env :: s', q) => (s', [RExec env q]) | ([], q) => ([], q) end.
Proof. reflexivity. Qed.
Lemma perform_exec : forall env q s, perform (RExec env q) s = (let (s', o) := perform_all q (env :: s) in (tl s', o)).
Proof. reflexivity. Qed.

Lemma sequence_app : forall f g s, sequence (f ++ g) s =
  (let (s1, o1) := sequence f s in let (s2, o2) := sequence g s1 in (s2, o1 ++ o2)).
Proof.
  induction f as [|a f IH]; intros g s; cbn [app Vars_Spec.sequence]; [destruct (sequence g s); reflexivity|].
  destruct (one a s) as [s1 o1]. rewrite IH. destruct (sequence f s1) as [s2 o2]. destruct (sequence g s2) as [s3 o3]. rewrite app_assoc. reflexivity.
Qed.
Lemma perform_all_app : forall f g s, perform_all (f ++ g) s =
  (let (s1, o1) := perform_all f s in let (s2, o2) := perform_all g s1 in (s2, o1 ++ o2)).
Proof.
  induction f as [|a f IH]; intros g s; cbn [app Vars_Model.perform_all]; [destruct (perform_all g s); reflexivity|].
  destruct (perform a s) as [s1 o1]. rewrite IH. destruct (perform_all f s1) as [s2 o2]. destruct (perform_all g s2) as [s3 o3]. rewrite app_assoc. reflexivity.
Qed.

(** ** The phase of starting *)
(** The effect of the local and of the global parts. *)
Definition own1 (a : stmt) (l : scope) : scope :=
  match a with SetLit x v => put x v l | SetExpr x _ | Declare x => match assoc x l with Some _ => l | None => put x null l end | _ => l end.
Definition own (f : list stmt) (l : scope) : scope := fold_left (fun l a => own1 a l) f l.
Definition glob (f : list stmt) (s : scopes) : scopes := fst (sequence (flat_map (@globals V) f) s).

Lemma globals_silent : forall a s, snd (sequence (globals a) s) = [].
Proof.
  induction a as [x v|x v|x e|e|x|f IH] using stmt_rect'; intro s; try reflexivity.
  change (globals (Execute f)) with (flat_map (@globals V) f).
  revert s. induction IH as [|a f H _ IHf]; intro s; [reflexivity|]. cbn [flat_map]. rewrite sequence_app.
  destruct (sequence (globals a) s) as [s1 o1] eqn:E. specialize (H s). rewrite E in H. cbn [snd] in H. subst o1.
  specialize (IHf s1). destruct (sequence (flat_map (@globals V) f) s1). exact IHf.
Qed.
Lemma glob_cons : forall a f s, glob (a :: f) s = glob f (glob [a] s).
Proof.
  intros a f s. unfold glob. cbn [flat_map]. rewrite app_nil_r, sequence_app. destruct (sequence (globals a) s) as [s1 o1]. cbn [fst].
  destruct (sequence (flat_map (@globals V) f) s1). reflexivity.
Qed.
Lemma glob_seq : forall f s, sequence (flat_map (@globals V) f) s = (glob f s, []).
Proof.
  intros f s. unfold glob. pose proof (globals_silent (Execute f) s) as H. change (globals (Execute f)) with (flat_map (@globals V) f) in H.
  destruct (sequence (flat_map (@globals V) f) s). cbn [fst snd] in *. subst. reflexivity.
Qed.
Lemma glob_nil : forall f s, s <> [] -> glob f s <> [].
Proof.
  intros f s H. unfold glob.
  assert (G : forall l s, s <> [] -> Forall (fun a => exists x v, a = SetGlobal x v) l -> fst (sequence l s) <> []).
  { clear. induction l as [|a l IH]; intros s H F; [exact H|]. inversion F as [|? ? [x [v ->]] F']; subst. cbn [Vars_Spec.sequence Vars_Spec.one].
    specialize (IH (put_global x v s)). destruct (sequence l (put_global x v s)). cbn [fst] in *. apply IH; [|exact F'].
    destruct s as [|g [|h s]]; [congruence|discriminate|discriminate]. }
  apply G; [exact H|]. clear.
  assert (A : forall a : stmt, Forall (fun a => exists x v, a = SetGlobal x v) (globals a)).
  { induction a as [x v|x v|x e|e|x|f' IH] using stmt_rect'; cbn [globals]; try constructor; eauto.
    induction IH; [constructor|]. cbn [flat_map]. apply Forall_app. split; assumption. }
  induction f as [|a f IH]; [constructor|]. cbn [flat_map]. apply Forall_app. split; [apply A|exact IH].
Qed.
Lemma put_global_cons : forall x v (l : scope) s, s <> [] -> put_global x v (l :: s) = l :: put_global x v s.
Proof. intros x v l [|g s] H; [congruence|reflexivity]. Qed.
Lemma glob_push : forall f (l : scope) s, s <> [] -> glob f (l :: s) = l :: glob f s.
Proof.
  intros f l s H. unfold glob.
  assert (A : forall a : stmt, Forall (fun a => exists x v, a = SetGlobal x v) (globals a)).
  { induction a as [x v|x v|x e|e|x|f' IH] using stmt_rect'; cbn [globals]; try constructor; eauto.
    induction IH; [constructor|]. cbn [flat_map]. apply Forall_app. split; assumption. }
  assert (F : Forall (fun a => exists x v, a = SetGlobal x v) (flat_map (@globals V) f)).
  { induction f as [|a f IH]; [constructor|]. cbn [flat_map]. apply Forall_app. split; [apply A|exact IH]. }
  revert s H. induction F as [|a r [x [v ->]] _ IH]; intros s H; [reflexivity|]. cbn [Vars_Spec.sequence Vars_Spec.one]. rewrite put_global_cons by exact H.
  assert (N : put_global x v s <> []) by (destruct s as [|g [|h s]]; [congruence|discriminate|discriminate]). specialize (IH _ N).
  destruct (sequence r (l :: put_global x v s)), (sequence r (put_global x v s)). cbn [fst] in *. exact IH.
Qed.

(** Starting a statement in the scope [l] inside [s]; and what the submitted runners do later. *)
Definition starts_as (a : stmt) : Prop := forall l s, s <> [] ->
  exists q, start a (l :: s) = (own1 a l :: glob [a] s, q) /\ forall s', s' <> [] -> perform_all q s' = sequence (late a) s'.
Lemma perform_nonempty : forall q s, s <> [] -> fst (perform_all q s) <> [].
Proof.
  assert (R : forall r, forall s, s <> [] -> fst (perform r s) <> []).
  { fix IH 1. intros [x e|e|env q] s H; [cbn; destruct s; [congruence|discriminate]|exact H|]. rewrite perform_exec.
    assert (G : forall q s, length s <= length (fst (perform_all q s))).
    { clear - null. assert (R : forall r s, length s <= length (fst (perform r s))).
      { fix IH 1. intros [x e|e|env q] s; [cbn; destruct s; cbn; lia|cbn; lia|]. rewrite perform_exec.
        assert (G : length (env :: s) <= length (fst (perform_all q (env :: s)))).
        { generalize (env :: s). induction q as [|r q IHq]; intro s0; [cbn; lia|]. cbn [Vars_Model.perform_all]. pose proof (IH r s0) as L.
          destruct (perform r s0) as [s1 o1]. specialize (IHq s1). destruct (perform_all q s1) as [s2 o2]. cbn [fst] in *. lia. }
        destruct (perform_all q (env :: s)) as [s2 o2]. cbn [fst] in *. destruct s2; cbn [tl length] in *; lia. }
      induction q as [|r q IHq]; intro s0; [cbn; lia|]. cbn [Vars_Model.perform_all]. pose proof (R r s0) as L.
      destruct (perform r s0) as [s1 o1]. specialize (IHq s1). destruct (perform_all q s1) as [s2 o2]. cbn [fst] in *. lia. }
    specialize (G q (env :: s)). destruct (perform_all q (env :: s)) as [s2 o2]. cbn [fst length] in *. destruct s2 as [|a [|b s2]]; cbn [tl length] in *; [lia| |discriminate].
    destruct s; [congruence|cbn [length] in G; lia]. }
  induction q as [|r q IH]; intros s H; [exact H|]. cbn [Vars_Model.perform_all]. specialize (R r s H). destruct (perform r s) as [s1 o1]. cbn [fst] in R.
  specialize (IH s1 R). destruct (perform_all q s1). exact IH.
Qed.

Lemma start_all_as : forall f, Forall starts_as f -> forall l s, s <> [] ->
  exists q, start_all f (l :: s) = (own f l :: glob f s, q) /\ forall s', s' <> [] -> perform_all q s' = sequence (flat_map (@late V) f) s'.
Proof.
  induction 1 as [|a f A _ IH]; intros l s H; [exists []; split; [reflexivity|]; reflexivity|].
  destruct (A l s H) as [q1 [S1 P1]]. destruct (IH (own1 a l) (glob [a] s) (glob_nil [a] H)) as [q2 [S2 P2]].
  exists (q1 ++ q2). split.
  - cbn [Vars_Model.start_all]. rewrite S1, S2. rewrite (glob_cons a f s). reflexivity.
  - intros s' N. rewrite perform_all_app. cbn [flat_map]. rewrite sequence_app. pose proof (perform_nonempty q1 N) as M. rewrite <- (P1 s' N).
    destruct (perform_all q1 s') as [s1 o1]. cbn [fst] in M. rewrite (P2 s1 M). reflexivity.
Qed.
Lemma locals_seq : forall f (l : scope) s, sequence (flat_map (@locals V) f) (l :: s) = (own f l :: s, []).
Proof.
  induction f as [|a f IH]; intros l s; [reflexivity|]. cbn [flat_map]. rewrite sequence_app.
  assert (E : sequence (locals a) (l :: s) = (own1 a l :: s, [])).
  { destruct a; cbn [locals Vars_Spec.sequence Vars_Spec.one put_local Vars_Spec.put_new own1]; try reflexivity; destruct (assoc x l); reflexivity. }
  rewrite E. cbn [app]. rewrite IH. reflexivity.
Qed.
Lemma starts : forall a, starts_as a.
Proof.
  induction a as [x v|x v|x e|e|x|f IH] using stmt_rect'; intros l s H.
  - exists []. split; reflexivity.
  - exists []. split; [|reflexivity]. cbn [Vars_Model.start]. rewrite put_global_cons by exact H. reflexivity.
  - exists [RInto x e]. split; [|reflexivity]. cbn [Vars_Model.start Vars_Spec.put_new own1]. destruct (assoc x l); reflexivity.
  - exists [RQuery e]. split; reflexivity.
  - exists []. split; [|reflexivity]. cbn [Vars_Model.start Vars_Spec.put_new own1]. destruct (assoc x l); reflexivity.
  - rewrite start_execute. destruct (start_all_as IH [] (s := l :: s) ltac:(discriminate)) as [q [S P]].
    match type of S with ?L = _ => match goal with |- context [Vars_Model.start_all null f ?X] => change (Vars_Model.start_all null f X) with L end end.
    rewrite S, (glob_push f l H).
    exists [RExec (own f []) q]. split.
    + cbn [own1]. f_equal. f_equal. unfold glob. cbn [flat_map globals]. rewrite app_nil_r. reflexivity.
    + intros s' N. cbn [Vars_Model.perform_all late Vars_Spec.sequence]. rewrite perform_exec, one_execute, sequence_app, locals_seq.
      rewrite (P (own f [] :: s') ltac:(discriminate)). destruct (sequence (flat_map (@late V) f) (own f [] :: s')) as [s2 o2]. reflexivity.
Qed.

Lemma early_seq : forall f (l : scope) s, s <> [] -> sequence (flat_map (@early V) f) (l :: s) = (own f l :: glob f s, []).
Proof.
  induction f as [|a f IH]; intros l s H; [reflexivity|]. cbn [flat_map]. unfold early at 1. rewrite !sequence_app.
  pose proof (locals_seq [a] l s) as L. cbn [flat_map] in L. rewrite app_nil_r in L. rewrite L.
  pose proof (glob_seq [a] (own [a] l :: s)) as G. cbn [flat_map] in G. rewrite app_nil_r in G. rewrite G, (glob_push [a] _ H). cbn [app].
  rewrite IH by (apply glob_nil, H). rewrite (glob_cons a f s). reflexivity.
Qed.

(** A script does first, for all its statements, what they do when they are read. *)
Theorem script_exact : forall f (l : scope) s, s <> [] -> script null f (l :: s) = sequence (hoist f) (l :: s).
Proof.
  intros f l s H. unfold script, hoist. destruct (start_all_as (f := f) ltac:(apply Forall_forall; intros; apply starts) l H) as [q [S P]].
  rewrite S, (P (own f l :: glob f s) ltac:(discriminate)), sequence_app, (early_seq f l H).
  destruct (sequence (flat_map (@late V) f) (own f l :: glob f s)). reflexivity.
Qed.
End Proofs.

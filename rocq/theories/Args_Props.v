(** C62: the settings of a session and of a statement reach each of its subqueries, and only its own. *)
From Verif Require Import Base Str_Model Str_Proofs Args_Model Args_Proofs.
Open Scope nat_scope.

Section P.
Variable V : Type.
Notation args := (args V).
Notation node := (node V).

Definition own_settings (n : node) : list (text * V) := match n with Node _ _ _ own => own end.
(** The subquery of a statement at a path. *)
Inductive at_path : node -> list nat -> node -> Prop :=
| At_here n : at_path n [] n
| At_below name children own i c l p n :
    nth_error children i = Some (c, l) -> at_path c p n -> at_path (Node V name children own) (i :: p) n.

(** The settings a subquery takes over from the session. *)
Definition settings : list text :=
  [t "@verbose"; t "@timeout"; t "@limit"; t "@batch"; t "@streaming"; t "@recovery"; t "@join_batch"; t "@insert_batch"].
Lemma settings_const : forall k, In k settings -> In k const_keys /\ k <> t "@primary_order".
Proof.
  intros k I. cbn [settings In] in I.
  repeat (destruct I as [I|I]; [subst k; split; [cbn [const_keys In]; tauto|discriminate]|]). destruct I.
Qed.
Lemma const_value : forall (a : args) k, In k const_keys -> const_args V a k = a k.
Proof.
  intros a k I. unfold const_args. assert (existsb (text_eqb k) const_keys = true) as ->; [|reflexivity].
  apply existsb_exists. exists k. split; [exact I|apply text_eqb_refl].
Qed.
Lemma const_at : forall k, In k const_keys -> exists r, k = t "@" ++ r.
Proof.
  intros k I. cbn [const_keys In] in I.
  repeat (destruct I as [I|I]; [subst k; eexists; reflexivity|]). destruct I.
Qed.
Lemma order_not_set : forall k (l : list (text * V)), k <> t "@primary_order" -> Forall (fun kv => fst kv = t "@primary_order") l -> last_set V k l = None.
Proof.
  intros k l N H. induction H as [|[k' v] l E H IH]; [reflexivity|]. cbn [last_set fst] in *. rewrite IH. subst k'.
  assert (text_eqb k (t "@primary_order") = false) as -> by (apply text_eqb_neq; exact N). reflexivity.
Qed.

Theorem subquery_settings : forall root session path n,
  plain_tree V root -> plain_args V session -> at_path root path n ->
  exists x, start V root (compile V root session) path = Some (n, x)
    /\ forall k, In k settings ->
       x k = match last_set V k (own_settings n) with Some v => Some v | None => session k end.
Proof.
  intros root session path n P A H. revert session A.
  induction H as [n|name children own i c l p n E H IH]; intros session A.
  - eexists. split; [reflexivity|]. intros k I0. destruct (settings_const k I0) as [I N]. destruct (const_at k I) as [r ->]. destruct n as [name children own].
    inversion P as [? ? ? C O S]; subst. cbn [own_settings]. apply compile_value. intros c l J. destruct (C c l J) as (Pc & _ & L).
    split; [exact Pc|]. apply order_not_set; assumption.
  - pose proof P as P'. inversion P' as [? ? ? C O S]; subst.
    assert (I : In (c, l) children) by (eapply nth_error_In; exact E). destruct (C c l I) as (Pc & Tc & _).
    destruct (IH Tc (const_args V (before V children session i)) (const_plain V _)) as (x & Sx & Vx).
    pose proof (child_args V name children own session i c l P A E) as CA.
    destruct (start_ext V p c _ (strip V (node_name V c) (compile V (Node V name children own) session)) n x (fun k => eq_sym (CA k)) Sx) as (y & Sy & Ey).
    exists y. split.
    + cbn [start]. rewrite E. exact Sy.
    + intros k Ik0. destruct (settings_const k Ik0) as [Ik N]. rewrite <- Ey, (Vx k Ik0). destruct (last_set V k (own_settings n)); [reflexivity|].
      rewrite const_value by exact Ik. destruct (const_at k Ik) as [r ->]. unfold before. apply steps_value. intros d m J.
      assert (J' : In (d, m) children) by (rewrite <- (firstn_skipn i children); apply in_or_app; left; exact J).
      destruct (C d m J') as (Pd & _ & L). split; [exact Pd|]. apply order_not_set; assumption.
Qed.

(** *** EXPLAIN *)
Lemma suffix_app : forall s a, suffixb s (a ++ s) = true.
Proof.
  intros s a. unfold suffixb. rewrite app_length. replace (length a + length s - length s) with (length a) by lia.
  rewrite skipn_app, skipn_all, Nat.sub_diag. apply text_eqb_refl.
Qed.
Lemma suffix_last : forall s a b d, s <> [] -> b <> [] -> last b d <> last s d -> suffixb s (a ++ b) = false.
Proof.
  intros s a b d Ns Nb L. unfold suffixb. apply text_eqb_neq. intros E. apply L.
  assert (Q : last (a ++ b) d = last s d).
  { rewrite <- (firstn_skipn (length (a ++ b) - length s) (a ++ b)). rewrite E.
    destruct (exists_last Ns) as (s' & z & ->). rewrite app_assoc. rewrite !last_last. reflexivity. }
  destruct (exists_last Nb) as (b' & z & ->). rewrite app_assoc, last_last in Q. rewrite last_last. exact Q.
Qed.
(** Starting a subquery reads the dictionary of the statement below a prefix. *)
Lemma start_prefix : forall path n (a : args) m x, start V n a path = Some (m, x) ->
  exists pre, (forall k, x k = a (pre ++ k)) /\ forall b, exists y, start V n b path = Some (m, y) /\ forall k, y k = b (pre ++ k).
Proof.
  induction path as [|i p IH]; intros n a m x H; cbn [start] in *.
  - injection H as <- <-. exists []. split; [reflexivity|]. intros b. exists b. split; reflexivity.
  - destruct n as [name children own]. destruct (nth_error children i) as [[c l]|] eqn:E; [|discriminate].
    destruct (IH _ _ _ _ H) as (pre & X & Y). exists (node_name V c ++ t "@" ++ pre). split.
    + intros k. rewrite X. unfold strip. rewrite <- !app_assoc. reflexivity.
    + intros b. destruct (Y (strip V (node_name V c) b)) as (y & Sy & Ey). exists y. split; [exact Sy|].
      intros k. rewrite Ey. unfold strip. rewrite <- !app_assoc. reflexivity.
Qed.

Theorem explain_settings : forall root session path n true_,
  plain_tree V root -> plain_args V session -> session (t "@verbose") <> None -> at_path root path n ->
  exists x, start V root (explain V true_ (compile V root session)) path = Some (n, x)
    /\ x (t "@verbose") = Some true_
    /\ forall k, In k settings -> k <> t "@verbose" ->
       x k = match last_set V k (own_settings n) with Some v => Some v | None => session k end.
Proof.
  intros root session path n tr P A VB H. destruct (subquery_settings root session path n P A H) as (x & Sx & Vx).
  destruct (start_prefix _ _ _ _ _ Sx) as (pre & X & Y). destruct (Y (explain V tr (compile V root session))) as (y & Sy & Ey).
  exists y. split; [exact Sy|]. split.
  - rewrite Ey. unfold explain. rewrite <- X, (Vx (t "@verbose")) by (left; reflexivity). rewrite suffix_app.
    destruct (last_set V (t "@verbose") (own_settings n)); [reflexivity|]. destruct (session (t "@verbose")); [reflexivity|contradiction].
  - intros k I0 N. destruct (settings_const k I0) as [I _]. rewrite Ey. unfold explain. rewrite <- X, (Vx k I0).
    assert (suffixb (t "@verbose") (pre ++ k) = false) as ->.
    { apply suffix_last with (d := 0%N).
      - discriminate.
      - destruct (const_at k I) as [r ->]. discriminate.
      - cbn [const_keys In] in I. intros L.
        repeat (destruct I as [I|I]; [subst k; try (vm_compute in L; discriminate L); try (apply N; reflexivity)|]). destruct I. }
    destruct (last_set V k (own_settings n)); [reflexivity|]. destruct (session k); reflexivity.
Qed.
End P.
Print Assumptions subquery_settings.
Print Assumptions explain_settings.

(** A statement with @limit 10, a subquery without settings of its own and a subquery of that with @limit 2. *)
Definition tree1 : node nat :=
  Node nat (t "--1")
    [(Node nat (t "--1.a") [(Node nat (t "--1.a.b") [] [(t "@limit", 2)], [])] [], [(t "@primary_order", 0)]); (Node nat (t "--1.c") [] [(t "@limit", 3)], [])]
    [(t "@limit", 10)].
Definition session1 : args nat := set nat (t "@timeout") 60 (set nat (t "@limit") 100 (set nat (t "@verbose") 0 (fun _ => None))).
Lemma session1_plain : plain_args nat session1.
Proof.
  intros k H. unfold session1, set.
  destruct (text_eqb k (t "@timeout")) eqn:E1; [apply text_eqb_spec in E1; exfalso; apply (H (t "timeout")); exact E1|].
  destruct (text_eqb k (t "@limit")) eqn:E2; [apply text_eqb_spec in E2; exfalso; apply (H (t "limit")); exact E2|].
  destruct (text_eqb k (t "@verbose")) eqn:E3; [apply text_eqb_spec in E3; exfalso; apply (H (t "verbose")); exact E3|]. reflexivity.
Qed.
Lemma tree1_plain : plain_tree nat tree1.
Proof.
  apply Plain.
  - intros c l [E|[E|[]]]; injection E as <- <-.
    + split; [exists 45%N; eexists; split; [reflexivity|discriminate]|]. split; [|repeat constructor].
      apply Plain; [|constructor|repeat constructor].
      intros c l [E|[]]. injection E as <- <-. split; [exists 45%N; eexists; split; [reflexivity|discriminate]|]. split; [|constructor].
      apply Plain; [intros c l []| |constructor]. constructor; [exists (t "limit"); reflexivity|constructor].
    + split; [exists 45%N; eexists; split; [reflexivity|discriminate]|]. split; [|constructor].
      apply Plain; [intros c l []| |constructor]. constructor; [exists (t "limit"); reflexivity|constructor].
  - constructor; [exists (t "limit"); reflexivity|constructor].
  - constructor; [|repeat constructor]. constructor; [|constructor]. cbn [fst node_name].
    split; [discriminate|]. split; intros x; discriminate.
Qed.
Example tree1_settings :
  (exists x, start nat tree1 (compile nat tree1 session1) [] = Some (tree1, x) /\ x (t "@limit") = Some 10)
  /\ (exists n x, start nat tree1 (compile nat tree1 session1) [0] = Some (n, x) /\ x (t "@limit") = Some 100 /\ x (t "@timeout") = Some 60)
  /\ (exists n x, start nat tree1 (compile nat tree1 session1) [0; 0] = Some (n, x) /\ x (t "@limit") = Some 2 /\ x (t "@timeout") = Some 60)
  /\ (exists n x, start nat tree1 (compile nat tree1 session1) [1] = Some (n, x) /\ x (t "@limit") = Some 3).
Proof.
  split; [eexists; split; reflexivity|]. split; [do 2 eexists; split; [reflexivity|split; reflexivity]|].
  split; [do 2 eexists; split; [reflexivity|split; reflexivity]|]. do 2 eexists. split; reflexivity.
Qed.
Example tree1_at : at_path nat tree1 [0; 0] (Node nat (t "--1.a.b") [] [(t "@limit", 2)]).
Proof. eapply At_below; [reflexivity|]. eapply At_below; [reflexivity|]. apply At_here. Qed.

(** The condition on names is needed: the subquery x of a, with a @limit of 7, is given the 2 of another one called a@x. *)
Definition bad_tree : node nat :=
  Node nat (t "--1") [(Node nat (t "a") [(Node nat (t "x") [] [(t "@limit", 7)], [])] [], []); (Node nat (t "a@x") [] [(t "@limit", 2)], [])] [].
Theorem at_in_names_refuted :
  exists n x, start nat bad_tree (compile nat bad_tree (fun _ => None)) [0; 0] = Some (n, x)
    /\ last_set nat (t "@limit") (own_settings nat n) = Some 7 /\ x (t "@limit") = Some 2.
Proof. do 2 eexists. split; [reflexivity|]. split; reflexivity. Qed.
Print Assumptions at_in_names_refuted.

From Verif Require Import Base Str_Model Str_Proofs Args_Model.
Open Scope nat_scope.

(** Different names of which none is the other followed by @ and something. *)
Definition separate (a b : text) : Prop :=
  a <> b /\ (forall x, b <> a ++ t "@" ++ x) /\ (forall x, a <> b ++ t "@" ++ x).
(** A name does not begin with @. *)
Definition proper (a : text) : Prop := exists c r, a = c :: r /\ c <> 64%N.

Section P.
Variable V : Type.
Notation args := (args V).
Notation node := (node V).

Inductive plain_tree : node -> Prop :=
| Plain name children own :
    (forall c l, In (c, l) children -> proper (node_name V c) /\ plain_tree c /\ Forall (fun kv => fst kv = t "@primary_order") l) ->
    Forall (fun kv => exists r, fst kv = t "@" ++ r) own ->
    ForallOrdPairs (fun c d => separate (node_name V (fst c)) (node_name V (fst d))) children ->
    plain_tree (Node V name children own).

Lemma order_key : forall (l : list (text * V)), Forall (fun kv => fst kv = t "@primary_order") l -> Forall (fun kv => exists r, fst kv = t "@" ++ r) l.
Proof. intros l H. rewrite Forall_forall in *. intros kv I. exists (t "primary_order"). exact (H kv I). Qed.
Lemma at_not_name : forall a k r, proper a -> a ++ t "@" ++ k <> t "@" ++ r.
Proof. intros a k r (c & x & -> & H) E. cbn in E. injection E as -> _. apply H. reflexivity. Qed.
Lemma strip_set : forall a r v (d : args) k, proper a -> strip V a (set V (t "@" ++ r) v d) k = strip V a d k.
Proof.
  intros a r v d k H. unfold strip, set.
  assert (text_eqb (a ++ t "@" ++ k) (t "@" ++ r) = false) as -> by (apply text_eqb_neq; apply at_not_name; exact H). reflexivity.
Qed.
Lemma strip_assign : forall a l (d : args) k, proper a -> Forall (fun kv => exists r, fst kv = t "@" ++ r) l ->
  strip V a (assign V l d) k = strip V a d k.
Proof.
  intros a l d k P H. revert d. unfold assign. induction H as [|[x v] l [r E] H IH]; intros d; [reflexivity|]. cbn [fold_left fst snd] in *. subst x.
  rewrite IH. apply strip_set. exact P.
Qed.
Lemma strip_update : forall a (sub d : args) k, strip V a (update V a sub d) k = match sub k with Some v => Some v | None => strip V a d k end.
Proof.
  intros a sub d k. unfold strip, update.
  assert (prefixb (a ++ t "@") (a ++ t "@" ++ k) = true) as -> by (apply prefixb_spec; exists k; rewrite <- app_assoc; reflexivity).
  rewrite app_assoc, skipn_app, skipn_all, Nat.sub_diag. reflexivity.
Qed.
Lemma app_eq_cases : forall (A : Type) (a b x y : list A), a ++ x = b ++ y -> (exists z, b = a ++ z /\ x = z ++ y) \/ (exists z, a = b ++ z /\ y = z ++ x).
Proof.
  intros A. induction a as [|c a IH]; intros b x y H; [left; exists b; split; [reflexivity|exact H]|].
  destruct b as [|d b]; [right; exists (c :: a); split; [reflexivity|symmetry; exact H]|].
  injection H as <- H. destruct (IH b x y H) as [(z & -> & ->)|(z & -> & ->)]; [left|right]; exists z; split; reflexivity.
Qed.
Lemma strip_update_other : forall a b (sub d : args) k, separate a b -> strip V a (update V b sub d) k = strip V a d k.
Proof.
  intros a b sub d k (N & H1 & H2). unfold strip, update. destruct (prefixb (b ++ t "@") (a ++ t "@" ++ k)) eqn:P; [|reflexivity]. exfalso.
  apply prefixb_spec in P. destruct P as [x E]. rewrite <- app_assoc in E. symmetry in E. apply app_eq_cases in E as [(z & E1 & E2)|(z & E1 & E2)].
  - destruct z as [|c z]; [rewrite app_nil_r in E1; congruence|]. cbn in E2. injection E2 as <- E2. apply (H2 z). exact E1.
  - destruct z as [|c z]; [rewrite app_nil_r in E1; congruence|]. cbn in E2. injection E2 as <- E2. apply (H1 z). exact E1.
Qed.
Lemma separate_sym : forall a b, separate a b -> separate b a.
Proof. intros a b (N & H1 & H2). split; [congruence|]. split; assumption. Qed.

(** A dictionary without keys of subqueries. *)
Definition plain_args (d : args) : Prop := forall k, (forall r, k <> t "@" ++ r) -> d k = None.
Lemma const_plain : forall d, plain_args (const_args V d).
Proof.
  intros d k H. unfold const_args. destruct (existsb (text_eqb k) const_keys) eqn:E; [|reflexivity].
  apply existsb_exists in E as (c & I & E). apply text_eqb_spec in E. subst c. exfalso.
  cbn [const_keys In] in I. repeat (destruct I as [I|I]; [symmetry in I; apply (H _ I)|]). destruct I.
Qed.

Definition step (a : args) (c : node * list (text * V)) : args :=
  assign V (snd c) (update V (node_name V (fst c)) (compile V (fst c) (const_args V a)) a).

(** The dictionary just before the i-th child is compiled. *)
Definition before (children : list (node * list (text * V))) (a : args) (i : nat) : args := fold_left step (firstn i children) a.

Lemma strip_steps : forall name children a k, proper name ->
  Forall (fun c => separate name (node_name V (fst c)) /\ Forall (fun kv => exists r, fst kv = t "@" ++ r) (snd c)) children ->
  strip V name (fold_left step children a) k = strip V name a k.
Proof.
  intros name children a k P H. revert a. induction H as [|c children [S L] H IH]; intros a; [reflexivity|]. cbn [fold_left].
  rewrite IH. unfold step. rewrite strip_assign by assumption. apply strip_update_other. exact S.
Qed.
Lemma child_args : forall name children own a i c l, plain_tree (Node V name children own) -> plain_args a -> nth_error children i = Some (c, l) ->
  forall k, strip V (node_name V c) (compile V (Node V name children own) a) k = compile V c (const_args V (before children a i)) k.
Proof.
  intros name children own a i c l P A E k. inversion P as [? ? ? H O S]; subst.
  assert (I : In (c, l) children) by (eapply nth_error_In; exact E). destruct (H c l I) as (Pc & _ & Ll). apply order_key in Ll.
  cbn [compile]. rewrite strip_assign by assumption. change (fold_left _ children a) with (fold_left step children a).
  unfold before. assert (A' : forall k, strip V (node_name V c) a k = None).
  { intros k'. unfold strip. apply A. intros r Er. exact (at_not_name _ _ _ Pc Er). }
  clear O P A I. revert a A' i E. induction children as [|[d m] children IH]; intros a A i E; [destruct i; discriminate|].
  inversion S as [|? ? S1 S2]; subst. cbn [fst] in S1.
  destruct i as [|i]; cbn [nth_error firstn fold_left] in *.
  - injection E as -> ->. rewrite strip_steps; [|exact Pc|].
    + unfold step. cbn [fst snd]. rewrite strip_assign by assumption. rewrite strip_update.
      destruct (compile V c (const_args V a) k) eqn:Ck; [reflexivity|]. apply A.
    + apply Forall_forall. intros [e n] Ie. rewrite Forall_forall in S1. split; [exact (S1 _ Ie)|]. apply order_key. apply (H e n). right. exact Ie.
  - assert (Ic : In (c, l) children) by (eapply nth_error_In; exact E).
    assert (SEP : separate (node_name V c) (node_name V d)) by (rewrite Forall_forall in S1; apply separate_sym; exact (S1 _ Ic)).
    apply IH; [intros e n J; apply H; right; exact J|exact S2| |exact E].
    intros k'. unfold step. cbn [fst snd]. rewrite strip_assign by (try exact Pc; apply order_key; apply (H d m); left; reflexivity).
    rewrite strip_update_other by exact SEP. apply A.
Qed.

(** *** The settings themselves *)
Fixpoint last_set (k : text) (l : list (text * V)) : option V :=
  match l with [] => None | (k', v) :: r => match last_set k r with Some w => Some w | None => if text_eqb k k' then Some v else None end end.
Lemma assign_value : forall l (a : args) k, assign V l a k = match last_set k l with Some v => Some v | None => a k end.
Proof.
  unfold assign. induction l as [|[k' v] l IH]; intros a k; [reflexivity|]. cbn [fold_left last_set fst snd]. rewrite IH.
  destruct (last_set k l); [reflexivity|]. unfold set. destruct (text_eqb k k'); reflexivity.
Qed.
Lemma update_value : forall name (sub a : args) r, proper name -> update V name sub a (t "@" ++ r) = a (t "@" ++ r).
Proof.
  intros name sub a r P. unfold update. destruct (prefixb (name ++ t "@") (t "@" ++ r)) eqn:E; [|reflexivity]. exfalso.
  apply prefixb_spec in E. destruct E as [x E]. rewrite <- app_assoc in E. symmetry in E. exact (at_not_name _ _ _ P E).
Qed.
Lemma step_value : forall a c r, proper (node_name V (fst c)) -> step a c (t "@" ++ r) = match last_set (t "@" ++ r) (snd c) with Some v => Some v | None => a (t "@" ++ r) end.
Proof. intros a c r P. unfold step. rewrite assign_value. destruct (last_set _ (snd c)); [reflexivity|]. apply update_value. exact P. Qed.
Lemma steps_value : forall children a r, (forall c l, In (c, l) children -> proper (node_name V c) /\ last_set (t "@" ++ r) l = None) ->
  fold_left step children a (t "@" ++ r) = a (t "@" ++ r).
Proof.
  induction children as [|[c l] children IH]; intros a r H; [reflexivity|]. cbn [fold_left]. rewrite IH by (intros; apply H; right; assumption).
  destruct (H c l (or_introl eq_refl)) as [P L]. rewrite step_value by exact P. cbn [snd]. rewrite L. reflexivity.
Qed.
Lemma compile_value : forall name children own a r, (forall c l, In (c, l) children -> proper (node_name V c) /\ last_set (t "@" ++ r) l = None) ->
  compile V (Node V name children own) a (t "@" ++ r) = match last_set (t "@" ++ r) own with Some v => Some v | None => a (t "@" ++ r) end.
Proof.
  intros. cbn [compile]. rewrite assign_value. destruct (last_set _ own); [reflexivity|].
  change (fold_left _ children a) with (fold_left step children a). apply steps_value. assumption.
Qed.
Lemma compile_ext : forall n (a b : args), (forall k, a k = b k) -> forall k, compile V n a k = compile V n b k.
Proof.
  fix IH 1. intros [name children own] a b E k. cbn [compile]. rewrite !assign_value. destruct (last_set k own); [reflexivity|].
  revert a b E k. induction children as [|[c l] children IHc]; intros a b E k; [apply E|]. cbn [fold_left fst snd]. apply IHc. intros k'.
  rewrite !assign_value. destruct (last_set k' l); [reflexivity|]. unfold update.
  assert (Q : forall k, compile V c (const_args V a) k = compile V c (const_args V b) k)
    by (apply IH; intros x; unfold const_args; rewrite E; reflexivity).
  rewrite Q, E. reflexivity.
Qed.
Lemma start_ext : forall path n (a b : args) n' x, (forall k, a k = b k) -> start V n a path = Some (n', x) ->
  exists y, start V n b path = Some (n', y) /\ forall k, x k = y k.
Proof.
  induction path as [|i p IH]; intros n a b n' x E H; cbn [start] in *.
  - injection H as <- <-. exists b. split; [reflexivity|exact E].
  - destruct n as [name children own]. destruct (nth_error children i) as [[c l]|]; [|discriminate].
    eapply IH; [|exact H]. intros k. unfold strip. apply E.
Qed.
End P.

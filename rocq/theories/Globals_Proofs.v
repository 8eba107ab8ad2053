From Verif Require Import Base Agg_Model Env_Model Utils_Model Utils_Proofs Json_Proofs Globals_Model Globals_Spec.

Lemma unquote_plain : forall v, (forall c r, v = c :: r -> ~ quote c) -> unquote v = v.
Proof.
  intros [|c r] H; [reflexivity|]. cbn. specialize (H c r eq_refl). unfold quote in H.
  destruct (c =? 34)%N eqn:A; [apply N.eqb_eq in A; tauto|]. destruct (c =? 39)%N eqn:B; [apply N.eqb_eq in B; tauto|]. reflexivity.
Qed.
Lemma unquote_quoted : forall q v, quote q -> unquote ([q] ++ v ++ [q]) = v.
Proof.
  intros q v H. cbn. assert (((q =? 34) || (q =? 39))%N = true) as -> by (destruct H; subst; reflexivity).
  apply removelast_last.
Qed.
Lemma add_arg_gives : forall env arg n v, gives arg n v -> add_arg env arg = dict_set n v env.
Proof.
  intros env arg n v H. destruct H as [n N1|n v N1 N2 Q|n q v N1 Q N2].
  - change (t "--" ++ n) with (45%N :: 45%N :: n). cbn [add_arg]. rewrite (split_on_none _ _ N1). reflexivity.
  - change (t "--" ++ n ++ t "=" ++ v) with (45%N :: 45%N :: (n ++ 61%N :: v)). cbn [add_arg].
    rewrite (split_on_one _ _ _ N1), (split_on_none _ _ N2). rewrite unquote_plain; auto.
  - change (t "--" ++ n ++ t "=" ++ [q] ++ v ++ [q]) with (45%N :: 45%N :: (n ++ 61%N :: ([q] ++ v ++ [q]))). cbn [add_arg].
    rewrite (split_on_one _ _ _ N1), split_on_none.
    + rewrite unquote_quoted by exact Q. reflexivity.
    + intro I. apply in_app_or in I. destruct I as [[I|[]]|I]; [destruct Q; subst; discriminate|].
      apply in_app_or in I. destruct I as [I|[I|[]]]; [exact (N2 I)|destruct Q; subst; discriminate].
Qed.
(** The name an argument is about. *)
Lemma split_on_head : forall sep s, exists a r, split_on sep s = a :: r /\ ~ In sep a /\ (s = a \/ exists b, s = a ++ sep :: b).
Proof.
  intros sep s. induction s as [|c s (a & r & E & N1 & H)].
  - exists [], []. split; [reflexivity|]. split; [intros []|left; reflexivity].
  - cbn. destruct (c =? sep)%N eqn:Q.
    + apply N.eqb_eq in Q. subst. exists [], (split_on sep s). split; [reflexivity|]. split; [intros []|right; exists s; reflexivity].
    + rewrite E. exists (c :: a), r. split; [reflexivity|]. split.
      * intros [I|I]; [subst; rewrite N.eqb_refl in Q; discriminate|exact (N1 I)].
      * destruct H as [H|[b H]]; [left|right; exists b]; rewrite H at 1; reflexivity.
Qed.
Lemma add_arg_other : forall env arg n, ~ names arg n -> assoc n (add_arg env arg) = assoc n env.
Proof.
  intros env arg n H. unfold add_arg.
  destruct arg as [|c [|c' s]]; auto; try (repeat match goal with |- context [match ?p with _ => _ end] => is_var p; destruct p end; reflexivity).
  destruct (N.eq_dec c 45) as [->|C1]; [|repeat match goal with |- context [match ?p with _ => _ end] => is_var p; destruct p end; try reflexivity; congruence].
  destruct (N.eq_dec c' 45) as [->|C1]; [|repeat match goal with |- context [match ?p with _ => _ end] => is_var p; destruct p end; try reflexivity; congruence].
  destruct (split_on_head 61 s) as (a & r & E & N1 & S). rewrite E.
  assert (D : n <> a).
  { intros ->. apply H. split; [exact N1|]. destruct S as [S|[b S]]; [left; rewrite S; reflexivity|right; exists b; rewrite S; reflexivity]. }
  assert (F : text_eqb n a = false) by (apply text_eqb_neq; exact D).
  destruct r as [|w r]; rewrite assoc_dict_set, F; reflexivity.
Qed.
Lemma args_other : forall argv env n, (forall a, In a argv -> ~ names a n) -> assoc n (fold_left add_arg argv env) = assoc n env.
Proof.
  induction argv as [|a argv IH]; intros env n H; [reflexivity|]. cbn. rewrite IH by (intros; apply H; right; auto).
  apply add_arg_other. apply H. left. reflexivity.
Qed.
Lemma env_other : forall lower l env n, (forall k v, In (k, v) l -> lower k <> n) ->
  assoc n (fold_left (add_env lower) l env) = assoc n env.
Proof.
  intros lower. induction l as [|[k v] l IH]; intros env n H; [reflexivity|]. cbn.
  rewrite IH by (intros; eapply H; right; eauto). unfold add_env. cbn [fst snd]. rewrite assoc_dict_set.
  assert (text_eqb n (lower k) = false) as ->; [|reflexivity]. apply text_eqb_neq. intro E. apply (H k v); [left; reflexivity|congruence].
Qed.
Lemma reads_assoc : forall g n, reads g n =
  match assoc n g with
  | Some v => Ok v
  | None => match (match n with 64%N :: b => assoc b g | _ => None end) with Some v => Ok v | None => Err KeyError end
  end.
Proof.
  intros g n. unfold reads, get_value, start, new_scope. cbn [search nth_error app svars sparent assoc].
  assert (E : (match n with 64%N :: _ => @None gval | _ => None end) = None).
  { destruct n as [|c b]; [reflexivity|]. repeat match goal with |- context [match ?p with _ => _ end] => is_var p; destruct p end; reflexivity. }
  rewrite E. destruct (assoc n g); [reflexivity|].
  destruct (match n with 64%N :: b => assoc b g | _ => None end); reflexivity.
Qed.

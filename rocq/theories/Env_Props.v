(** C08: variable scoping. *)
From Verif Require Import Base Agg_Model Env_Model Env_Spec Json_Proofs.

Section Props.
Variable V : Type.
Notation event := (event V).

(** Carrying out a history with the model's operations. *)
Definition perform (h : heap V) (e : event) : heap V :=
  match e with Open p => new_scope V h p | Put s k v => set_var V h s k v end.
Definition replay (es : list event) : heap V := fold_left perform es [].

Lemma replay_snoc : forall l e, replay (l ++ [e]) = perform (replay l) e.
Proof. intros. unfold replay. rewrite fold_left_app. reflexivity. Qed.
Lemma set_var_nth : forall h s k v i, nth_error (set_var V h s k v) i =
  match nth_error h i with
  | Some c => if Nat.eqb i s then Some (mkscope V (sparent V c) (dict_set k v (svars V c))) else Some c
  | None => None
  end.
Proof.
  induction h as [|c h IH]; intros s k v i; [destruct i; reflexivity|].
  destruct s as [|s], i as [|i]; cbn [set_var nth_error Nat.eqb]; try reflexivity.
  - destruct (nth_error h i); reflexivity.
  - apply IH.
Qed.
Lemma opened_app : forall l r, opened V (l ++ r) = opened V l ++ opened V r.
Proof. induction l as [|[p|s k v] l IH]; intro r; cbn; [reflexivity|f_equal; apply IH|apply IH]. Qed.
Lemma wf_snoc : forall l e, wellformed V (l ++ [e]) -> wellformed V l /\
  match e with Open (Some p) => p < length (opened V l) | Open None => True | Put s _ _ => s < length (opened V l) end.
Proof.
  intros l e H. split.
  - intros l1 e1 r E. apply (H l1 e1 (r ++ [e])). rewrite E, <- app_assoc. reflexivity.
  - apply (H l e []). reflexivity.
Qed.

(** The heap holds exactly the last values put. *)
Lemma holds_snoc_put : forall l s k v, holds V (l ++ [Put s k v]) s k v.
Proof. intros. exists l, []. split; [reflexivity|intros v' []]. Qed.
Lemma event_dec_put : forall (e : event) s k, (exists v, e = Put s k v) \/ forall v, e <> Put s k v.
Proof.
  intros [p|s' k' v'] s k; [right; discriminate|]. destruct (Nat.eq_dec s' s), (text_eq_dec k' k); subst; [left; eauto|right; intros v E; congruence..].
Qed.
Lemma holds_snoc_other : forall l e s k v, (forall v', e <> Put s k v') -> (holds V (l ++ [e]) s k v <-> holds V l s k v).
Proof.
  intros l e s k v N. split.
  - intros (a & r & E & H). destruct r as [|x r] using rev_ind.
    + apply app_inj_tail in E. destruct E as [_ E]. exfalso. apply (N v). exact E.
    + assert (E' : l ++ [e] = (a ++ Put s k v :: r) ++ [x]) by (rewrite E, <- app_assoc; reflexivity).
      apply app_inj_tail in E'. destruct E' as [E' _]. exists a, r. split; [exact E'|]. intros v' I. apply (H v'). apply in_or_app. left. exact I.
  - intros (a & r & E & H). exists a, (r ++ [e]). split; [rewrite E, <- app_assoc; reflexivity|].
    intros v' I. apply in_app_or in I. destruct I as [I|[I|[]]]; [apply (H v' I)|apply (N v' I)].
Qed.
Lemma unset_snoc : forall l e s k, unset V (l ++ [e]) s k <-> unset V l s k /\ forall v, e <> Put s k v.
Proof.
  intros l e s k. unfold unset. split.
  - intro H. split; intros v I; apply (H v); apply in_or_app; [left; exact I|right; left; exact I].
  - intros [H1 H2] v I. apply in_app_or in I. destruct I as [I|[I|[]]]; [apply (H1 v I)|apply (H2 v I)].
Qed.
Lemma replay_inv : forall es, wellformed V es ->
  map (sparent V) (replay es) = opened V es /\
  forall s c k, nth_error (replay es) s = Some c ->
    (forall v, assoc k (svars V c) = Some v <-> holds V es s k v) /\ (assoc k (svars V c) = None <-> unset V es s k).
Proof.
  induction es as [|e es IH] using rev_ind; intro W.
  - split; [reflexivity|]. intros s c k E. destruct s; discriminate E.
  - apply wf_snoc in W. destruct W as [W We]. destruct (IH W) as [P H]. clear IH. rewrite replay_snoc, opened_app.
    destruct e as [p|s0 k0 v0]; cbn [perform opened].
    + unfold new_scope. rewrite map_app, P. split; [reflexivity|]. intros s c k E.
      destruct (Nat.lt_ge_cases s (length (replay es))) as [L|L].
      * rewrite nth_error_app1 in E by exact L. destruct (H s c k E) as [H1 H2]. split.
        -- intro v. rewrite H1. symmetry. apply holds_snoc_other. discriminate.
        -- rewrite H2, unset_snoc. split; [intro U; split; [exact U|discriminate]|tauto].
      * rewrite nth_error_app2 in E by exact L. destruct (s - length (replay es)) as [|n] eqn:Es; [|destruct n; discriminate E].
        cbn in E. assert (c = mkscope V p []) as -> by congruence. cbn [svars assoc].
        assert (U : forall v, ~ In (Put s k v) (es ++ [Open p])).
        { intros v I. apply in_app_or in I. destruct I as [I|[I|[]]]; [|discriminate I].
          apply in_split in I. destruct I as (a & b & ->). specialize (W a _ b eq_refl). cbn in W.
          assert (length (opened V (a ++ Put s k v :: b)) = length (replay (a ++ Put s k v :: b))) as L' by (rewrite <- P, map_length; reflexivity).
          rewrite opened_app, app_length in L'. lia. }
        split; [|split; [intros _; exact U|reflexivity]].
        intro v. split; [discriminate|]. intros (a & b & E' & _). exfalso. apply (U v). rewrite E'. apply in_or_app. right. left. reflexivity.
    + rewrite app_nil_r.
      assert (M : map (sparent V) (set_var V (replay es) s0 k0 v0) = map (sparent V) (replay es)).
      { generalize (replay es) as g. clear. intro g. revert s0. induction g as [|c g IH]; intros [|s]; cbn; try reflexivity. f_equal. apply IH. }
      split; [rewrite M; exact P|]. intros s c k E. rewrite set_var_nth in E.
      destruct (nth_error (replay es) s) as [c0|] eqn:E0; [|discriminate E]. destruct (H s c0 k E0) as [H1 H2].
      destruct (Nat.eqb_spec s s0) as [->|Ns].
      * injection E as <-. cbn [svars]. rewrite assoc_dict_set.
        destruct (text_eqb k k0) eqn:Ek.
        -- apply text_eqb_spec in Ek. subst k0. split.
           ++ intro v. split.
              ** intro X. injection X as ->. apply holds_snoc_put.
              ** intros (a & b & E' & N). destruct b as [|x b] using rev_ind.
                 --- apply app_inj_tail in E'. destruct E' as [_ E']. congruence.
                 --- exfalso. assert (E2 : es ++ [Put s0 k v0] = (a ++ Put s0 k v :: b) ++ [x]) by (rewrite E', <- app_assoc; reflexivity).
                     apply app_inj_tail in E2. destruct E2 as [_ E2]. apply (N v0). apply in_or_app. right. left. symmetry. exact E2.
           ++ split; [discriminate|]. intro U. exfalso. apply (U v0). apply in_or_app. right. left. reflexivity.
        -- apply text_eqb_neq in Ek. split.
           ++ intro v. rewrite H1. symmetry. apply holds_snoc_other. intros v' X. congruence.
           ++ rewrite H2, unset_snoc. split; [intro U; split; [exact U|intros v X; congruence]|tauto].
      * assert (c = c0) as -> by congruence. split.
        -- intro v. rewrite H1. symmetry. apply holds_snoc_other. intros v' X. congruence.
        -- rewrite H2, unset_snoc. split; [intro U; split; [exact U|intros v X; congruence]|tauto].
Qed.

Lemma parents_older : forall es, wellformed V es -> forall s p, nth_error (opened V es) s = Some (Some p) -> p < s.
Proof.
  induction es as [|e es IH] using rev_ind; intros W s p E; [destruct s; discriminate E|].
  apply wf_snoc in W. destruct W as [W We]. rewrite opened_app in E.
  destruct (Nat.lt_ge_cases s (length (opened V es))) as [L|L].
  - rewrite nth_error_app1 in E by exact L. apply (IH W s p E).
  - rewrite nth_error_app2 in E by exact L. destruct e as [q|a b c]; cbn [opened] in E; [|destruct (s - _); discriminate E].
    destruct (s - length (opened V es)) as [|n]; [|destruct n; discriminate E]. cbn in E. injection E as ->. lia.
Qed.

(** Reading a variable after any history gives the value last put in the innermost enclosing scope that defines it. *)
Theorem read_innermost : forall es s k r, wellformed V es -> s < length (opened V es) ->
  (reads V es s k r <-> search V (S s) (replay es) s k = r).
Proof.
  intros es s k r W L. destruct (replay_inv es W) as [P H].
  assert (G : forall fuel s, s < fuel -> s < length (opened V es) -> reads V es s k (search V fuel (replay es) s k)).
  { clear s r L. induction fuel as [|f IH]; intros s Lf L; [lia|]. cbn [search].
    destruct (nth_error (replay es) s) as [c|] eqn:E.
    2: { apply nth_error_None in E. rewrite <- P, map_length in L. lia. }
    assert (O : nth_error (opened V es) s = Some (sparent V c)) by (rewrite <- P; apply map_nth_error, E).
    destruct (H s c k E) as [H1 H2]. destruct (assoc k (svars V c)) as [v|] eqn:A; [apply reads_here, H1; reflexivity|].
    assert (U : unset V es s k) by (apply H2; reflexivity).
    destruct (match k with 64%N :: b => assoc b (svars V c) | _ => None end) as [v|] eqn:B.
    - destruct k as [|[|p] b]; try discriminate B. repeat (destruct p as [p|p|]; try discriminate B).
      eapply reads_bare; [exact U|reflexivity|]. destruct (H s c b E) as [H3 _]. apply H3, B.
    - assert (UB : forall b, bare k b -> unset V es s b).
      { intros b ->. destruct (H s c b E) as [_ H4]. apply H4, B. }
      destruct (sparent V c) as [p|] eqn:Sp; [|apply reads_nothing; assumption].
      pose proof (parents_older es W s p O). eapply reads_outer; [exact U|exact UB|exact O|]. apply IH; lia. }
  assert (D : forall s k r, reads V es s k r -> forall r', reads V es s k r' -> r = r').
  { clear. assert (HU : forall s k v v', holds V es s k v -> holds V es s k v' -> v = v').
    { intros s k v v' (a & b & E & N) (a' & b' & E' & N'). rewrite E in E'.
      destruct (Nat.lt_trichotomy (length a) (length a')) as [X|[X|X]].
      - exfalso. assert (nth_error (a ++ Put s k v :: b) (length a') = Some (Put s k v')) as Y by (rewrite E', nth_error_app2, Nat.sub_diag by lia; reflexivity).
        rewrite nth_error_app2 in Y by lia. destruct (length a' - length a) as [|m] eqn:Q; [lia|]. cbn in Y. apply nth_error_In in Y. apply (N v' Y).
      - assert (nth_error (a ++ Put s k v :: b) (length a) = nth_error (a' ++ Put s k v' :: b') (length a)) as Y by (rewrite E'; reflexivity).
        rewrite nth_error_app2, Nat.sub_diag in Y by lia. rewrite X, nth_error_app2, Nat.sub_diag in Y by lia. cbn in Y. congruence.
      - exfalso. assert (nth_error (a' ++ Put s k v' :: b') (length a) = Some (Put s k v)) as Y by (rewrite <- E', nth_error_app2, Nat.sub_diag by lia; reflexivity).
        rewrite nth_error_app2 in Y by lia. destruct (length a - length a') as [|m] eqn:Q; [lia|]. cbn in Y. apply nth_error_In in Y. apply (N' v Y). }
    assert (HX : forall s k v, holds V es s k v -> unset V es s k -> False).
    { intros s k v (a & b & E & _) U. apply (U v). rewrite E. apply in_or_app. right. left. reflexivity. }
    induction 1 as [s k v Hh|s k b v U Hb Hh|s k p r U UB O R IH|s k U UB O]; intros r' R'; inversion R'; clear R'; subst;
      try congruence;
      try (exfalso; match goal with A : holds V es ?s ?k _, B : unset V es ?s ?k |- _ => exact (HX s k _ A B) end);
      try (exfalso; match goal with A : holds V es ?s ?b _, B : bare ?k ?b, C : forall b, bare ?k b -> unset V es ?s b |- _ => exact (HX s b _ A (C b B)) end).
    - f_equal. eapply HU; eassumption.
    - f_equal. unfold bare in *. match goal with A : k = 64%N :: ?x |- _ => assert (b = x) by congruence; subst x end. eapply HU; eassumption.
    - apply IH. match goal with A : nth_error (opened V es) s = Some (Some ?x) |- _ => assert (p = x) as -> by congruence end. assumption. }
  pose proof (G (S s) s (Nat.lt_succ_diag_r s) L) as R. split; intro X; [apply (D s k _ R); exact X|subst r; exact R].
Qed.

(** Setting a variable: what the scope itself then reads; what other scopes and other names read does not change. *)
Theorem set_then_get : forall es s k v, wellformed V es -> s < length (opened V es) ->
  get_value V (set_var V (replay es) s k v) s k = Ok v.
Proof.
  intros es s k v W L. destruct (replay_inv es W) as [P _]. unfold get_value. cbn [search]. rewrite set_var_nth, Nat.eqb_refl.
  destruct (nth_error (replay es) s) as [c|] eqn:E.
  - cbn [svars]. rewrite assoc_dict_set, text_eqb_refl. reflexivity.
  - apply nth_error_None in E. rewrite <- P, map_length in L. lia.
Qed.
Theorem set_isolated : forall es s k v s' k', wellformed V es ->
  (~ encloses V es s s' \/ k' <> k /\ ~ bare k' k) ->
  get_value V (set_var V (replay es) s k v) s' k' = get_value V (replay es) s' k'.
Proof.
  intros es s k v s' k' W N. unfold get_value. replace (search V (S s') (set_var V (replay es) s k v) s' k') with (search V (S s') (replay es) s' k'); [reflexivity|].
  destruct (replay_inv es W) as [P _].
  assert (G : forall fuel s', (~ encloses V es s s' \/ k' <> k /\ ~ bare k' k) ->
     search V fuel (replay es) s' k' = search V fuel (set_var V (replay es) s k v) s' k'); [|apply G, N].
  clear s' N. induction fuel as [|f IH]; intros s' N; [reflexivity|]. cbn [search]. rewrite set_var_nth.
  destruct (nth_error (replay es) s') as [c|] eqn:E; [|reflexivity].
  assert (O : nth_error (opened V es) s' = Some (sparent V c)) by (rewrite <- P; apply map_nth_error, E).
  assert (UP : match sparent V c with Some p => search V f (replay es) p k' = search V f (set_var V (replay es) s k v) p k' | None => True end).
  { destruct (sparent V c) as [p|]; [|exact I]. apply IH. destruct N as [N|N]; [left|right; exact N]. intro X. apply N. eapply encloses_outer; eassumption. }
  destruct (Nat.eqb_spec s' s) as [->|Ns]; cbn [sparent svars].
  - destruct N as [N|[N1 N2]]; [exfalso; apply N; constructor|]. rewrite assoc_dict_set.
    assert (text_eqb k' k = false) as -> by (apply text_eqb_neq; exact N1). destruct (assoc k' (svars V c)); [reflexivity|].
    assert (B : match k' with 64%N :: b => assoc b (svars V c) | _ => None end =
                match k' with 64%N :: b => assoc b (dict_set k v (svars V c)) | _ => None end).
    { destruct k' as [|[|p] b]; try reflexivity. repeat (destruct p as [p|p|]; try reflexivity). rewrite assoc_dict_set.
      destruct (text_eqb b k) eqn:X; [|reflexivity]. apply text_eqb_spec in X. subst b. exfalso. apply N2. reflexivity. }
    rewrite <- B. destruct (match k' with 64%N :: b => assoc b (svars V c) | _ => None end); [reflexivity|]. destruct (sparent V c); [exact UP|reflexivity].
  - destruct (assoc k' (svars V c)); [reflexivity|]. destruct (match k' with 64%N :: b => _ | _ => None end); [reflexivity|].
    destruct (sparent V c); [exact UP|reflexivity].
Qed.

(** get_variable / set_variable with or without the '@'. *)
Theorem variable_roundtrip : forall es s n n' v d, wellformed V es -> s < length (opened V es) -> at_name n = at_name n' ->
  get_variable V (set_variable V (replay es) s n v) s n' d = v.
Proof.
  intros es s n n' v d W L E. unfold get_variable, set_variable, get. pose proof (set_then_get es s (at_name n) v W L) as H.
  unfold get_value in H. rewrite <- E. destruct (search V _ _ _ _); [congruence|discriminate H].
Qed.
(** A name written '@@x' is looked up as '@x' too; apart from that, variables do not interfere. *)
Theorem variable_frame : forall es s n n' v d s', wellformed V es ->
  ~ encloses V es s s' \/ at_name n <> at_name n' /\ at_name n' <> 64%N :: at_name n ->
  get_variable V (set_variable V (replay es) s n v) s' n' d = get_variable V (replay es) s' n' d.
Proof.
  intros es s n n' v d s' W H. unfold get_variable, set_variable, get.
  assert (K : ~ encloses V es s s' \/ at_name n' <> at_name n /\ ~ bare (at_name n') (at_name n)).
  { destruct H as [H|[H1 H2]]; [left; exact H|right; split; [congruence|exact H2]]. }
  pose proof (set_isolated es s (at_name n) v s' (at_name n') W K) as E. unfold get_value in E.
  destruct (search V _ (set_var V _ _ _ _) _ _), (search V _ (replay es) _ _); congruence.
Qed.
End Props.

(** Values put into the environment survive with their names; three enclosing scopes as the code builds them:
    0 the global scope, 1 the engine's executor, 2 a context's executor. *)
Definition ex_history : list (event N) :=
  [Open None; Put 0 (t "home") 7%N; Open (Some 0); Put 1 (t "@a") 1%N; Open (Some 1); Put 2 (t "@b") 2%N; Put 1 (t "@a") 3%N].
Lemma put_in_split : forall (es : list (event N)), (fix chk (l : list (event N)) n := match l with [] => True | Open None :: r => chk r (S n) | Open (Some p) :: r => p < n /\ chk r (S n) | Put s _ _ :: r => s < n /\ chk r n end) es 0 ->
  wellformed N es.
Proof.
  set (chk := fix chk (l : list (event N)) n := match l with [] => True | Open None :: r => chk r (S n) | Open (Some p) :: r => p < n /\ chk r (S n) | Put s _ _ :: r => s < n /\ chk r n end).
  assert (G : forall l e r n, chk (l ++ e :: r) n -> match e with Open (Some p) => p < n + length (opened N l) | Open None => True | Put s _ _ => s < n + length (opened N l) end).
  { induction l as [|x l IH]; intros e r n H.
    - cbn [app opened length]. rewrite Nat.add_0_r. destruct e as [[p|]|s k v]; cbn in H; try exact I; destruct H as [H _]; exact H.
    - destruct x as [[p|]|s k v]; cbn [app chk opened length] in *; [destruct H as [_ H]| |destruct H as [_ H]];
        specialize (IH _ _ _ H); destruct e as [[q|]|s' k' v']; cbn [length]; try exact I; lia. }
  intros es H l e r E. subst es. apply (G l e r 0) in H. destruct e as [[p|]|s k v]; cbn in *; try exact I; lia.
Qed.
Example ex_history_wf : wellformed N ex_history.
Proof. apply put_in_split. cbn. repeat split; lia. Qed.
Example ex_reads : search N 3 (replay N ex_history) 2 (t "@a") = Some 3%N /\ search N 3 (replay N ex_history) 2 (t "@home") = Some 7%N
  /\ search N 2 (replay N ex_history) 1 (t "@b") = None.
Proof. repeat split. Qed.
Example ex_isolated : ~ encloses N ex_history 2 1.
Proof. intro H. inversion H as [|a s p E H1]; subst. cbn in E. injection E as <-. inversion H1 as [|a s p E2 H2]; subst. discriminate E2. Qed.
Example ex_names : at_name (t "a") = at_name (t "@a") /\ at_name (t "a") <> at_name (t "b") /\ at_name (t "b") <> 64%N :: at_name (t "a").
Proof. repeat split; discriminate. Qed.

(** A variable set in a context shadows the engine's and stays private to the context. *)
Theorem context_private : forall V es s p k v k', wellformed V es -> nth_error (opened V es) s = Some (Some p) ->
  get_value V (set_var V (replay V es) s k v) p k' = get_value V (replay V es) p k'.
Proof.
  intros V es s p k v k' W O. apply set_isolated; [exact W|]. left.
  pose proof (parents_older V es W s p O) as L. intro H.
  assert (G : forall a b, encloses V es a b -> a <= b).
  { clear - W. induction 1 as [a|a b q E H IH]; [lia|]. pose proof (parents_older V es W b q E). lia. }
  specialize (G _ _ H). lia.
Qed.
(** A context reads through to the engine's variables as long as it does not define the name itself. *)
Theorem context_inherits : forall V es s p k, wellformed V es -> nth_error (opened V es) s = Some (Some p) ->
  unset V es s k -> (forall b, bare k b -> unset V es s b) ->
  get_value V (replay V es) s k = get_value V (replay V es) p k.
Proof.
  intros V es s p k W O U UB. pose proof (parents_older V es W s p O) as L.
  assert (Ls : s < length (opened V es)) by (apply nth_error_Some; congruence).
  unfold get_value. assert (search V (S s) (replay V es) s k = search V (S p) (replay V es) p k) as ->; [|reflexivity].
  apply (read_innermost V es s k _ W Ls). eapply reads_outer; [exact U|exact UB|exact O|]. apply read_innermost; [exact W|lia|reflexivity].
Qed.

(** set_variable stores under '@name', but a placeholder or lookup of the bare name searches 'name' only: the value
    set through the API is not found by its bare name. *)
Theorem bare_lookup_refuted : exists es s n v, wellformed N es /\ s < length (opened N es) /\
  get_value N (set_variable N (replay N es) s n v) s n = Err KeyError.
Proof. exists [Open None], 0, (t "day"), 1%N. split; [apply put_in_split; exact I|]. split; [cbn; lia|reflexivity]. Qed.
(** ... and the default of [get] is returned only when no enclosing scope defines the name. *)
Theorem get_default : forall V es s k d, wellformed V es -> s < length (opened V es) ->
  (forall v, ~ reads V es s k (Some v)) -> get V (replay V es) s k d = d.
Proof.
  intros V es s k d W L H. unfold get. destruct (search V (S s) (replay V es) s k) as [v|] eqn:E; [|reflexivity].
  exfalso. apply (H v). apply read_innermost; [exact W|exact L|exact E].
Qed.

Print Assumptions read_innermost.
Print Assumptions set_then_get.
Print Assumptions set_isolated.
Print Assumptions variable_roundtrip.
Print Assumptions variable_frame.
Print Assumptions context_private.
Print Assumptions context_inherits.
Print Assumptions bare_lookup_refuted.
Print Assumptions get_default.

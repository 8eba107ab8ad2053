(** C201-C203: the variables a process starts with. *)
From Verif Require Import Base Agg_Model Env_Model Utils_Model Utils_Proofs Json_Proofs Globals_Model Globals_Spec Globals_Proofs.

Section Props.
Variable lower : text -> text.
Variable environ : list (text * text).
Variables home syncany_home cwd platform : text.
Notation globals := (build_global lower environ home syncany_home cwd platform).
Notation built_in := (built_in home syncany_home cwd platform).

Lemma built_in_assoc : forall n v l, built_in n v ->
  assoc n (dict_set (t "platform") (GStr platform) (dict_set (t "cwd") (GStr cwd)
    (dict_set (t "syncany_home") (GStr syncany_home) (dict_set (t "home") (GStr home) l)))) = Some (GStr v).
Proof. intros n v l H. destruct H; rewrite !assoc_dict_set; reflexivity. Qed.
Lemma not_built_in_assoc : forall n l, (forall v, ~ built_in n v) ->
  assoc n (dict_set (t "platform") (GStr platform) (dict_set (t "cwd") (GStr cwd)
    (dict_set (t "syncany_home") (GStr syncany_home) (dict_set (t "home") (GStr home) l)))) = assoc n l.
Proof.
  intros n l H. rewrite !assoc_dict_set.
  repeat match goal with |- context [text_eqb n ?k] => destruct (text_eqb n k) eqn:?E; [apply text_eqb_spec in E; subst; exfalso; eapply H; constructor|clear E] end.
  reflexivity.
Qed.

(** C201: the last argument about a variable decides, whatever the environment, the other arguments and their order. *)
Theorem argument_value : forall before arg after n v, gives arg n v -> (forall a, In a after -> ~ names a n) ->
  reads (globals (before ++ [arg] ++ after)) n = Ok v.
Proof.
  intros before arg after n v G H. rewrite reads_assoc. unfold build_global. rewrite !fold_left_app. cbn [fold_left].
  rewrite args_other by exact H. rewrite (add_arg_gives _ _ _ _ G), assoc_dict_set, text_eqb_refl. reflexivity.
Qed.
(** The same value is read as @n, unless an argument is about a variable called @n or the environment has one. *)
Theorem argument_at_value : forall before arg after n v, gives arg n v -> (forall a, In a after -> ~ names a n) ->
  (forall a, In a (before ++ after) -> ~ names a (t "@" ++ n)) -> (forall k w, In (k, w) environ -> lower k <> t "@" ++ n) ->
  reads (globals (before ++ [arg] ++ after)) (t "@" ++ n) = Ok v.
Proof.
  intros before arg after n v G H A E. pose proof (argument_value before arg after n v G H) as R.
  rewrite reads_assoc in *. change (t "@" ++ n) with (64%N :: n).
  assert (Z : assoc (64%N :: n) (globals (before ++ [arg] ++ after)) = None).
  { unfold build_global. rewrite !fold_left_app. cbn [fold_left].
    rewrite args_other by (intros a I; apply (A a); apply in_or_app; right; exact I).
    rewrite (add_arg_gives _ _ _ _ G), assoc_dict_set.
    assert (text_eqb (64%N :: n) n = false) as ->.
    { apply text_eqb_neq. intro Q. apply (f_equal (@length N)) in Q. cbn in Q. lia. }
    rewrite args_other by (intros a I; apply (A a); apply in_or_app; left; exact I).
    rewrite not_built_in_assoc by (intros w B; inversion B).
    apply (env_other lower environ [] _ E). }
  rewrite Z. destruct (assoc n (globals (before ++ [arg] ++ after))) as [w|] eqn:Q; [exact R|].
  exfalso. revert Q. unfold build_global. rewrite !fold_left_app. cbn [fold_left].
  rewrite args_other by exact H. rewrite (add_arg_gives _ _ _ _ G), assoc_dict_set, text_eqb_refl. discriminate.
Qed.
(** C202: without such an argument, the four built-in variables have their values whatever the environment has under their names. *)
Theorem built_in_value : forall argv n v, built_in n v -> (forall a, In a argv -> ~ names a n) ->
  reads (globals argv) n = Ok (GStr v).
Proof.
  intros argv n v B H. rewrite reads_assoc. unfold build_global. rewrite args_other by exact H. rewrite (built_in_assoc _ _ _ B). reflexivity.
Qed.
(** ... and an environment variable is read under its name in lower case, hence by ${NAME} written in any case. *)
Theorem environment_value : forall argv before k v after n, environ = before ++ (k, v) :: after -> lower k = lower n ->
  (forall k' v', In (k', v') after -> lower k' <> lower k) -> (forall w, ~ built_in (lower k) w) ->
  (forall a, In a argv -> ~ names a (lower k)) ->
  reads_placeholder lower (globals argv) n = Ok (GStr v).
Proof.
  intros argv before k v after n E L A B H. unfold reads_placeholder. rewrite <- L, reads_assoc.
  unfold build_global. rewrite args_other by exact H. rewrite not_built_in_assoc by exact B.
  rewrite E, fold_left_app. cbn [fold_left]. rewrite env_other by exact A. unfold add_env. cbn [fst snd].
  rewrite assoc_dict_set, text_eqb_refl. reflexivity.
Qed.
(** Nothing else is defined: a name that is not given by an argument, built in or in the environment is unknown. *)
Theorem nothing_else : forall argv n, hd 0%N n <> 64%N -> (forall a, In a argv -> ~ names a n) -> (forall v, ~ built_in n v) ->
  (forall k v, In (k, v) environ -> lower k <> n) -> reads (globals argv) n = Err KeyError.
Proof.
  intros argv n F H B E. rewrite reads_assoc. unfold build_global. rewrite args_other by exact H.
  rewrite not_built_in_assoc by exact B. rewrite (env_other lower environ [] _ E). cbn [assoc].
  destruct n as [|c b]; [reflexivity|]. cbn in F.
  repeat match goal with |- context [match ?p with _ => _ end] => is_var p; destruct p end; try reflexivity. congruence.
Qed.

(** C203, what holds in general: the value is what stands between the first and the second '='. *)
Theorem value_up_to_second_equals : forall before after n v r, ~ In 61%N n -> ~ In 61%N v -> (forall c w, v = c :: w -> ~ quote c) ->
  (forall a, In a after -> ~ names a n) ->
  reads (globals (before ++ [t "--" ++ n ++ t "=" ++ v ++ t "=" ++ r] ++ after)) n = Ok (GStr v).
Proof.
  intros before after n v r N1 N2 Q H. rewrite reads_assoc. unfold build_global. rewrite !fold_left_app. cbn [fold_left].
  rewrite args_other by exact H.
  assert (E : forall env, add_arg env (t "--" ++ n ++ t "=" ++ v ++ t "=" ++ r) = dict_set n (GStr v) env).
  { intro env. change (t "--" ++ n ++ t "=" ++ v ++ t "=" ++ r) with (45%N :: 45%N :: (n ++ 61%N :: (v ++ 61%N :: r))). cbn [add_arg].
    rewrite (split_on_one _ _ _ N1), (split_on_one _ _ _ N2). rewrite (unquote_plain _ Q). reflexivity. }
  rewrite E, assoc_dict_set, text_eqb_refl. reflexivity.
Qed.
End Props.
Print Assumptions argument_value.
Print Assumptions argument_at_value.
Print Assumptions built_in_value.
Print Assumptions environment_value.
Print Assumptions nothing_else.
Print Assumptions value_up_to_second_equals.

(** ASCII lower case, for the examples. *)
Definition low (s : text) : text := map (fun c => if ((65 <=? c) && (c <=? 90))%N then (c + 32)%N else c) s.
Definition env0 : list (text * text) := [(t "PATH", t "/bin"); (t "HOME", t "/x"); (t "Day", t "1")].
Definition run0 (argv : list text) : list (text * gval) := build_global low env0 (t "/root") (t "/root/.s") (t "/w") (t "linux") argv.

Lemma not_named : forall a n, In 61%N n \/ (firstn (length (t "--" ++ n)) a <> t "--" ++ n) -> ~ names a n.
Proof.
  intros a n [H|H] [N1 K]; [exact (N1 H)|]. apply H. destruct K as [->|[r ->]].
  - apply firstn_all.
  - rewrite app_assoc, firstn_app, firstn_all, Nat.sub_diag. cbn [firstn]. apply app_nil_r.
Qed.
Example argument_value_case : reads (run0 [t "main.py"; t "--day=2"; t "--day='x y'"; t "--days=3"; t "q.sql"]) (t "day") = Ok (GStr (t "x y")).
Proof.
  apply (argument_value low env0 (t "/root") (t "/root/.s") (t "/w") (t "linux") [t "main.py"; t "--day=2"] (t "--day='x y'") [t "--days=3"; t "q.sql"]).
  - apply (gives_quoted (t "day") 39 (t "x y")); [|right; reflexivity|]; cbn; intuition discriminate.
  - intros a [<-|[<-|[]]] [_ [K|[r K]]]; discriminate.
Qed.
Example built_in_case : reads (run0 [t "main.py"]) (t "home") = Ok (GStr (t "/root")).
Proof. apply built_in_value; [constructor|]. intros a [<-|[]] [_ [K|[r K]]]; discriminate. Qed.
Example environment_case : reads_placeholder low (run0 [t "main.py"]) (t "Path") = Ok (GStr (t "/bin")).
Proof.
  apply (environment_value low env0 _ _ _ _ [t "main.py"] [] (t "PATH") (t "/bin") [(t "HOME", t "/x"); (t "Day", t "1")]); try reflexivity.
  - intros k v [E|[E|[]]]; injection E as <- <-; discriminate.
  - intros w B. inversion B.
  - intros a [<-|[]] [_ [K|[r K]]]; discriminate.
Qed.
Example nothing_else_case : reads (run0 [t "main.py"]) (t "month") = Err KeyError.
Proof.
  apply nothing_else; [discriminate| | |].
  - intros a [<-|[]] [_ [K|[r K]]]; discriminate.
  - intros v B. inversion B.
  - intros k v [E|[E|[E|[]]]]; injection E as <- <-; discriminate.
Qed.

(** C203: the argument given is not always the value read. *)
Theorem argument_with_equals_refuted : exists v, reads (run0 [t "--url=a?b=1"]) (t "url") = Ok (GStr v) /\ t "--url=" ++ v <> t "--url=a?b=1".
Proof. exists (t "a?b"). split; [reflexivity|discriminate]. Qed.
(** An opening quote without a closing one costs the last character. *)
Theorem unclosed_quote_refuted : reads (run0 [t "--who='tis"]) (t "who") = Ok (GStr (t "ti")).
Proof. reflexivity. Qed.
Theorem capital_argument_refuted : reads (run0 [t "--Day=5"]) (t "Day") = Ok (GStr (t "5")) /\
  reads_placeholder low (run0 [t "--Day=5"]) (t "Day") = Ok (GStr (t "1")).
Proof. split; reflexivity. Qed.
Print Assumptions argument_with_equals_refuted.
Print Assumptions unclosed_quote_refuted.
Print Assumptions capital_argument_refuted.

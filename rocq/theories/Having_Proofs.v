From Coq Require Import SpecFloat.
From Verif Require Import Base PyVal Utils_Model Calc_Model Calc_Proofs Calc_Props Str_Model Str_Proofs Regexp_Model Regexp_Props Expr_Syntax Expr_Model Expr_Spec Expr_Proofs
  Having_Model Having_Spec.
Open Scope Z_scope.

Lemma columns_mentions : forall n e, In n (columns e) <-> mentions n e.
Proof.
  intros n.
  induction e as [v|m|a IHa|a IHa|a IHa|a b IHa IHb|a b IHa IHb|a b IHa IHb|k a b IHa IHb|a l IHa IHl|a lo hi IHa IHlo IHhi
                 |c a f IHc IHa IHf|a b IHa IHb|a l IHa IHl|o ifs els IHo IHifs IHels|k l IHl] using expr_induction.
  all: cbn [columns]; repeat rewrite in_app_iff.
  all: try (assert (FL : In n (flat_map columns l) <-> exists x, In x l /\ mentions n x)
              by (rewrite in_flat_map; rewrite Forall_forall in IHl; split; intros (x & I & M); exists x; split; auto; apply IHl; auto)).
  all: try rewrite FL.
  all: try (rewrite ?IHa, ?IHb, ?IHlo, ?IHhi, ?IHc; split; [intros H; constructor; tauto|intros H; inversion H; subst; tauto]).
  - cbn. split; [tauto|intros H; inversion H].
  - cbn. split; [intros [->|[]]; constructor|intros H; inversion H; auto].
  - rewrite IHa, IHc. destruct f as [x|]; cbn [opt_all] in IHf.
    + rewrite IHf. split; [intros H; apply M_if_else; tauto|intros H; inversion H; subst; tauto].
    + split; [intros [H|[H|[]]]; apply M_if; tauto|intros H; inversion H; subst; tauto].
  - rewrite in_flat_map. rewrite Forall_forall in IHifs. split.
    + intros [H|[H|([w x] & I & M)]].
      * destruct o as [e|]; [|destruct H]. apply M_case_of. apply IHo. exact H.
      * destruct els as [e|]; [|destruct H]. apply M_case_else. apply IHels. exact H.
      * destruct (IHifs _ I) as [A B]. cbn [fst snd] in *. rewrite in_app_iff in M. apply (M_case_when n o ifs els w x I).
        rewrite <- A, <- B. exact M.
    + intros H. inversion H as [| | | | | | | | | | | | | |e ? ? M|? ? ? w x I M|? ? e M|]; subst.
      * left. apply IHo. exact M.
      * right; right. exists (w, x). split; [exact I|]. destruct (IHifs _ I) as [A B]. cbn [fst snd] in *. rewrite in_app_iff, A, B. exact M.
      * right; left. apply IHels. exact M.
  - split; [intros (x & I & M); eapply M_fun; eauto|intros H; inversion H; subst; eauto].
Qed.

(** ** LIKE *)
Lemma join_split_one : forall x new s cur,
  join new (split_go [x] 0 cur s) = rev cur ++ flat_map (fun c => if (c =? x)%N then new else [c]) s.
Proof.
  intros x new. induction s as [|c s IH]; intros cur; [cbn; rewrite app_nil_r; reflexivity|].
  cbn [split_go prefixb length Nat.sub flat_map]. rewrite andb_true_r, (N.eqb_sym x c).
  destruct (c =? x)%N.
  - specialize (IH []). cbn [rev app] in IH. rewrite <- IH.
    destruct (split_go [x] 0 [] s) as [|p ps] eqn:E.
    + exfalso. clear -E. assert (forall cur, split_go [x] 0 cur s <> []) as K; [|exact (K [] E)].
      clear E. induction s as [|c s IH]; intros cur; cbn; [discriminate|]. destruct ((x =? c)%N && true); [discriminate|apply IH].
    + reflexivity.
  - rewrite IH. cbn [rev]. rewrite <- app_assoc. reflexivity.
Qed.
Lemma replace_one : forall x new s, py_replace s [x] new = flat_map (fun c => if (c =? x)%N then new else [c]) s.
Proof. intros. unfold py_replace. rewrite join_split_one. reflexivity. Qed.

(** No suffix starts with [d]. *)
Fixpoint absent (d s : text) : Prop := match s with [] => True | _ :: r => prefixb d s = false /\ absent d r end.
Lemma split_absent : forall d s cur, absent d s -> split_go d 0 cur s = [rev cur ++ s].
Proof.
  intros d. induction s as [|c s IH]; intros cur H; [cbn; rewrite app_nil_r; reflexivity|].
  cbn [split_go]. destruct H as [H1 H2]. rewrite H1, IH by exact H2. cbn [rev]. rewrite <- app_assoc. reflexivity.
Qed.
Lemma replace_absent : forall d new s, d <> [] -> absent d s -> py_replace s d new = s.
Proof. intros d new s D H. unfold py_replace. destruct d; [congruence|]. rewrite split_absent by exact H. reflexivity. Qed.

(** The regular expression of a token list. *)
Definition render (l : list tok) : text := flat_map (fun k => match k with Lit c => [c] | Any => t ".*" end) l.
Definition plain_tok (k : tok) : Prop := match k with Lit c => plain c = true | Any => True end.

Lemma plain_not : forall c, plain c = true -> c <> 46%N /\ c <> 42%N /\ c <> 37%N /\ c <> 95%N /\ c <> 10%N.
Proof. intros c H. repeat split; intros ->; discriminate. Qed.

Lemma like_tokens_percent : forall p, hd 0%N p <> 37%N -> like_tokens (37%N :: p) = Any :: like_tokens p.
Proof. intros [|d p] H; [reflexivity|]. cbn [hd] in H. cbn [like_tokens]. apply N.eqb_neq in H. change (37 =? 37)%N with true. cbv iota. rewrite H. reflexivity. Qed.
Lemma like_tokens_char : forall c p, c <> 37%N -> like_tokens (c :: p) = Lit c :: like_tokens p.
Proof. intros c p H. cbn [like_tokens]. apply N.eqb_neq in H. rewrite H. reflexivity. Qed.

Lemma pattern_plain : forall p, Forall (fun c => c = 37%N \/ plain c = true) p -> no_double p ->
  py_replace p (t "%") (t ".*") = render (like_tokens p) /\ absent (t ".*.*") (render (like_tokens p)) /\
  Forall plain_tok (like_tokens p) /\
  (hd 0%N p <> 37%N -> prefixb (t ".*") (render (like_tokens p)) = false).
Proof.
  intros p F ND. change (t "%") with [37%N]. rewrite replace_one. induction F as [|c p Hc F IH].
  - repeat split; constructor.
  - destruct (IH (no_double_tail _ _ ND)) as (E & A & T & Hd). destruct Hc as [-> | Hc].
    + pose proof (no_double_head _ ND) as Q. rewrite (like_tokens_percent p Q). cbn [flat_map]. change (37 =? 37)%N with true. cbv iota.
      unfold render. cbn [flat_map]. change (flat_map _ (like_tokens p)) with (render (like_tokens p)). rewrite E.
      assert (P0 : forall r, prefixb (t ".*") r = false -> prefixb (t ".*.*") (t ".*" ++ r) = false).
      { intros r K. change (t ".*.*") with (t ".*" ++ t ".*"). change (t ".*") with [46%N; 42%N] in *. cbn [app prefixb]. rewrite !N.eqb_refl. exact K. }
      split; [reflexivity|]. split; [|split].
      * change (t ".*" ++ render (like_tokens p)) with (46%N :: 42%N :: render (like_tokens p)).
        split; [apply (P0 _ (Hd Q))|]. split; [reflexivity|exact A].
      * constructor; [exact I|exact T].
      * cbn. congruence.
    + destruct (plain_not c Hc) as (D & S & P & _). rewrite (like_tokens_char c p P). cbn [flat_map].
      destruct (c =? 37)%N eqn:K; [apply N.eqb_eq in K; congruence|].
      unfold render. cbn [flat_map]. change (flat_map _ (like_tokens p)) with (render (like_tokens p)). rewrite E.
      assert (Dd : forall d r, prefixb (46%N :: d) (c :: r) = false).
      { intros d r. cbn [prefixb]. assert ((46 =? c)%N = false) as -> by (apply N.eqb_neq; congruence). reflexivity. }
      split; [reflexivity|]. split; [|split].
      * split; [apply Dd|exact A].
      * constructor; [exact Hc|exact T].
      * intros _. apply Dd.
Qed.
Lemma having_pattern_plain : forall p, Forall (fun c => c = 37%N \/ plain c = true) p -> no_double p ->
  having_pattern p = render (like_tokens p) /\ Forall plain_tok (like_tokens p).
Proof.
  intros p F ND. destruct (pattern_plain p F ND) as (E & A & T & _). split; [|exact T].
  unfold having_pattern. destruct (text_eqb p (t "%%")) eqn:K.
  - apply text_eqb_spec in K. subst p. destruct ND.
  - rewrite E. apply replace_absent; [discriminate|exact A].
Qed.

(** Lemmas for Cast_Props. *)
From Coq Require Import SpecFloat.
From Verif Require Import Base PyVal Utils_Model Calc_Model Str_Model Expr_Syntax Expr_Model Expr_Spec Expr_Proofs Where_Model Where_Types Having_Model Having_Spec Having_Proofs
  Group_Syntax Group_Model Inner_Syntax Inner_Model Inner_Spec Inner_Proofs Inner_Props Where_Spec Cast_Syntax Cast_Where Cast_Spec.
Open Scope Z_scope.

Lemma mentions_inv : forall n e, mentions n e -> e = ECol n \/ exists i c, In (i, c) (kids e) /\ mentions n c.
Proof.
  assert (L : forall n l (h : nat -> nat), (exists x, In x l /\ mentions n x) -> exists i c, In (i, c) (mapi (fun i x => (h i, x)) 0%nat l) /\ mentions n c).
  { intros n l h (x & I & M). apply In_nth_error in I as (j & E). exists (h j), x. split; [apply in_mapi; exists j, x; auto|exact M]. }
  intros n e M. inversion M as [|a H|a H|a H|a b H|a b H|a b H|k a b H|a l H|a b c H|a b H|a b c H|a b H|a l H|x ifs els H|o ifs els w x I H|o ifs x H|k l x I H]; subst;
    [left; reflexivity|..]; right; cbn [kids].
  all: try (exists 0%nat, a; split; [left; reflexivity|exact H]; fail).
  all: try (destruct H as [H|H]; [exists 0%nat, a; split; [left; reflexivity|exact H]|exists 1%nat, b; split; [right; left; reflexivity|exact H]]; fail).
  all: try (destruct H as [H|[H|H]]; [exists 0%nat, a; split; [left; reflexivity|exact H]|exists 1%nat, b; split; [right; left; reflexivity|exact H]|exists 2%nat, c; split; [right; right; left; reflexivity|exact H]]; fail).
  all: try (destruct H as [H|H]; [exists 0%nat, a; split; [left; reflexivity|exact H]|apply (L n l Datatypes.S) in H as (i & c & I & H); exists i, c; split; [right; exact I|exact H]]; fail).
  - exists 0%nat, x. split; [left; reflexivity|exact H].
  - apply In_nth_error in I as (j & E). destruct H as [H|H]; eexists _, _; (split; [|exact H]); apply in_app_iff; right; apply in_app_iff; left; apply in_concati; exists j, (w, x);
      (split; [exact E|]); cbn [In fst snd]; [left; reflexivity|right; left; reflexivity].
  - exists 1%nat, x. split; [rewrite !in_app_iff; right; right; left; reflexivity|exact H].
  - apply (L n l (fun i => i)). exists x. auto.
Qed.
Lemma has_column_mentions : forall e, has_column e = true <-> exists n, mentions n e.
Proof.
  induction e as [e IH] using kid_induction. rewrite has_column_kids. split.
  - intros [(m & ->)|(i & c & I & H)]; [exists m; constructor|]. apply (IH i c I) in H as (m & M). exists m. eapply mentions_kid; eassumption.
  - intros (m & M). apply mentions_inv in M. destruct M as [->|(i & c & I & M)]; [left; exists m; reflexivity|right]. exists i, c. split; [exact I|]. apply (IH i c I). exists m. exact M.
Qed.
Lemma without_columns_spec : forall e, without_columns e <-> has_column e = false.
Proof.
  intros e. unfold without_columns. split.
  - intros H. destruct (has_column e) eqn:E; [|reflexivity]. apply has_column_mentions in E as (n & M). destruct (H n M).
  - intros H n M. assert (has_column e = true) by (apply has_column_mentions; exists n; exact M). congruence.
Qed.
Lemma cast_form : forall e n, cast_column e = Some n -> exists k, e = EFun k [ECol n] /\ prefixb (t "CAST AS ") k = true.
Proof.
  intros e n H. destruct e as [| | | | | | | | | | | | | | |k l]; try discriminate H. cbn [cast_column] in H. destruct l as [|[] [|]]; try discriminate H.
  destruct (prefixb (t "CAST AS ") k) eqn:E; [|discriminate H]. injection H as ->. exists k. auto.
Qed.
Lemma cast_mentions : forall e n, cast_column e = Some n -> mentions n e.
Proof. intros e n H. apply cast_form in H as (k & -> & _). apply M_fun with (x := ECol n); [left; reflexivity|constructor]. Qed.
Lemma as_cast : forall e n, cast_column e = Some n -> as_column e = Some n.
Proof. intros e n H. pose proof (cast_form _ _ H) as (k & -> & _). exact H. Qed.
Lemma push_op_comparison : forall k, (exists op, push_op k = Some op) <-> comparison_op k = true.
Proof.
  intros k. unfold push_op, comparison_op. cbn [existsb].
  destruct (text_eqb k (t "eq")), (text_eqb k (t "neq")), (text_eqb k (t "gt")), (text_eqb k (t "gte")), (text_eqb k (t "lt")), (text_eqb k (t "lte"));
    cbn [orb]; split; intros H; try reflexivity; try (eexists; reflexivity); try discriminate H; destruct H as (? & H); discriminate H.
Qed.

Lemma where_uncast : forall compile primary ty e e', uncast e e' -> (e = e' \/ forall n, mentions n e -> primary n = true) ->
  forall q, where_cast compile primary ty e q = where_cond compile primary ty e' q.
Proof.
  intros compile primary ty e e' U. induction U as [a b a' b' Ua IHa Ub IHb|a a' Ua IHa|k c b n K C W|k a c n K C W|c l n C|e NA NP NC]; intros P q.
  - cbn [where_cast where_cond]. rewrite IHa by (destruct P as [P|P]; [injection P as P P'; left; exact P|right; intros n M; apply P; apply M_and; left; exact M]). destruct (where_cond compile primary ty a' q) as [[ma ra] q1].
    rewrite IHb by (destruct P as [P|P]; [injection P as P P'; left; exact P'|right; intros n M; apply P; apply M_and; right; exact M]). reflexivity.
  - cbn [where_cast where_cond]. rewrite IHa by (destruct P as [P|P]; [injection P as P; left; exact P|right; intros n M; apply P; apply M_paren; exact M]). reflexivity.
  - cbn [where_cast where_cond]. apply push_op_comparison in K as (op & ->). unfold parse_binary_cast, parse_binary. rewrite (as_cast _ _ C).
    replace (primary n) with true by (symmetry; destruct P as [P|P]; [injection P as ->; discriminate C|apply P; apply M_bin; left; apply cast_mentions; exact C]). apply without_columns_spec in W. rewrite W. reflexivity.
  - cbn [where_cast where_cond]. apply push_op_comparison in K as (op & ->). unfold parse_binary_cast, parse_binary.
    assert (NC : as_column a = None).
    { destruct (as_column a) as [m|] eqn:A; [|reflexivity]. exfalso. apply (W m). destruct a; try (apply cast_mentions; exact A). injection A as ->. constructor. }
    rewrite NC, (as_cast _ _ C). replace (primary n) with true by (symmetry; destruct P as [P|P]; [injection P as ->; discriminate C|apply P; apply M_bin; right; apply cast_mentions; exact C]). apply without_columns_spec in W. rewrite W.
    destruct a; try reflexivity. discriminate NC.
  - cbn [where_cast where_cond]. unfold parse_in_cast, parse_in. rewrite (as_cast _ _ C). replace (primary n) with true by (symmetry; destruct P as [P|P]; [injection P as ->; discriminate C|apply P; apply M_in; left; apply cast_mentions; exact C]). reflexivity.
  - destruct e as [|m| | | | | | |k a b|a l| | | | | |]; cbn [where_cast where_cond]; try reflexivity.
    + destruct (NP e eq_refl).
    + destruct (NA e1 e2 eq_refl).
    + destruct (push_op k) as [op|] eqn:K; [|reflexivity]. assert (Ck : comparison_op k = true) by (apply push_op_comparison; exists op; exact K).
      assert (E : parse_binary_cast compile primary a b = parse_binary compile primary a b); [|rewrite E; reflexivity].
      unfold parse_binary_cast, parse_binary. destruct (as_column a) as [m|] eqn:A.
      * destruct (cast_column a) as [m'|] eqn:Ca.
        -- assert (HB : has_column b = true).
           { destruct (has_column b) eqn:B; [reflexivity|]. exfalso. apply NC. eapply CC_left; [exact Ck|exact Ca|]. apply without_columns_spec. exact B. }
           assert (HA : has_column a = true) by (apply has_column_mentions; exists m'; apply cast_mentions; exact Ca).
           pose proof (cast_form _ _ Ca) as (k' & -> & _). cbn [as_column] in A. rewrite HB. rewrite HA.
           destruct (primary m), b; try reflexivity; destruct (primary _); reflexivity.
        -- destruct a; try (unfold as_column in A; congruence). injection A as ->. reflexivity.
      * assert (X : match a with ECol n => if primary n then if has_column b then None else Some (n, PV (compile b)) else None | _ => match b with ECol n => if primary n then if has_column a then None else Some (n, PV (compile a)) else None | _ => None end end
                  = match b with ECol n => if primary n then if has_column a then None else Some (n, PV (compile a)) else None | _ => None end) by (destruct a; try reflexivity; discriminate A).
        rewrite X. destruct (as_column b) as [m|] eqn:B; [|destruct b; try reflexivity; discriminate B].
        destruct (cast_column b) as [m'|] eqn:Cb; [|destruct b; try (unfold as_column in B; congruence); injection B as ->; reflexivity].
        assert (HA : has_column a = true).
        { destruct (has_column a) eqn:Ha; [reflexivity|]. exfalso. apply NC. eapply CC_right; [exact Ck|exact Cb|]. apply without_columns_spec. exact Ha. }
        pose proof (cast_form _ _ Cb) as (k' & -> & _). rewrite HA. destruct (primary m); reflexivity.
    + assert (E : parse_in_cast compile primary a l = parse_in compile primary a l); [|rewrite E; reflexivity].
      unfold parse_in_cast, parse_in. destruct (cast_column a) as [m'|] eqn:Ca; [exfalso; apply NC; eapply CC_in; exact Ca|].
      destruct a; try reflexivity. unfold as_column. rewrite Ca. reflexivity.
Qed.
(** Every condition has an [uncast] form. *)
Lemma uncast_total : forall e, exists e', uncast e e'.
Proof.
  assert (D : forall e, cast_compared e \/ ~ cast_compared e).
  { intros e. destruct e as [| | | | | | | |k a b|a l| | | | | |]; try (right; intros H; inversion H; fail).
    - destruct (comparison_op k) eqn:K; [|right; intros H; inversion H; congruence].
      destruct (cast_column a) as [n|] eqn:Ca.
      + destruct (has_column b) eqn:Hb; [|left; eapply CC_left; [exact K|exact Ca|apply without_columns_spec; exact Hb]].
        right. intros H. inversion H as [? ? ? ? ? C W|? ? ? m ? C W|]; subst; apply without_columns_spec in W; [congruence|].
        apply cast_mentions in Ca. assert (has_column a = true) by (apply has_column_mentions; exists n; exact Ca). congruence.
      + destruct (cast_column b) as [n|] eqn:Cb; [|right; intros H; inversion H; congruence].
        destruct (has_column a) eqn:Ha; [|left; eapply CC_right; [exact K|exact Cb|apply without_columns_spec; exact Ha]].
        right. intros H. inversion H as [? ? ? ? ? C W|? ? ? m ? C W|]; subst; apply without_columns_spec in W; congruence.
    - destruct (cast_column a) as [n|] eqn:Ca; [left; eapply CC_in; exact Ca|right; intros H; inversion H; congruence]. }
  induction e as [v|m|a IHa|a IHa|a IHa|a b IHa IHb|a b IHa IHb|a b IHa IHb|k a b IHa IHb|a l IHa IHl|a lo hi IHa IHlo IHhi|c a f IHc IHa IHf|a b IHa IHb|a l IHa IHl|o ifs els IHo IHi IHe|k l IHl] using expr_induction;
    try (eexists; apply U_same; [discriminate|discriminate|intros H; inversion H; fail]).
  - destruct IHa as (a' & Ua). exists (EParen a'). apply U_paren. exact Ua.
  - destruct IHa as (a' & Ua), IHb as (b' & Ub). exists (EAnd a' b'). apply U_and; assumption.
  - destruct (D (EBin k a b)) as [H|H]; [|eexists; apply U_same; [discriminate|discriminate|exact H]].
    inversion H; subst; eexists; [eapply U_left|eapply U_right]; eassumption.
  - destruct (D (EIn a l)) as [H|H]; [|eexists; apply U_same; [discriminate|discriminate|exact H]]. inversion H; subst. eexists. eapply U_in. eassumption.
Qed.
(** The result of [uncast] has no such comparisons left, and the pushed conditions of both are the same. *)
Lemma uncast_clean : forall e e', uncast e e' -> top_level (fun x => ~ cast_compared x) e'.
Proof.
  intros e e' U. induction U as [a b a' b' Ua IHa Ub IHb|a a' Ua IHa|k c b n K C W|k a c n K C W|c l n C|e NA NP NC].
  - apply T_and; assumption.
  - apply T_paren; assumption.
  - apply T_leaf; [discriminate|discriminate|]. intros H. inversion H as [? ? ? ? ? C' W'|? ? ? ? ? C' W'|]; subst; [discriminate C'|]. apply (W' n). constructor.
  - apply T_leaf; [discriminate|discriminate|]. intros H. inversion H as [? ? ? ? ? C' W'|? ? ? ? ? C' W'|]; subst; [apply (W' n); constructor|discriminate C'].
  - apply T_leaf; [discriminate|discriminate|]. intros H. inversion H as [| |? ? ? C']; subst. discriminate C'.
  - apply T_leaf; assumption.
Qed.
Lemma clean_uncast : forall e, top_level (fun x => ~ cast_compared x) e -> uncast e e.
Proof. intros e T. induction T; [apply U_and|apply U_paren|apply U_same]; assumption. Qed.

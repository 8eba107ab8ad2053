(** Property theorems C20 (LIKE) and C45 (REGEXP functions). *)
From Verif Require Import Base PyVal Calc_Model Calc_Proofs Regexp_Model Str_Proofs.
Open Scope Z_scope.

(** ** Specification of LIKE: the whole text matches the pattern. *)
Section LikeSpec.
Variable ci : N -> N -> bool.
Inductive like : text -> text -> Prop :=       (* like pattern text *)
| like_nil : like [] []
| like_percent : forall p any s, like p s -> like (37%N :: p) (any ++ s)
| like_underscore : forall p x s, like p s -> like (95%N :: p) (x :: s)
| like_char : forall c p x s, c <> 37%N -> c <> 95%N -> ci c x = true -> like p s -> like (c :: p) (x :: s).

(** What the code implements: some prefix of the text matches, '_' only matches itself, '%' does not
    match newlines, "%%" matches nothing. *)
Inductive like_code : text -> text -> Prop :=
| lc_nil : forall s, like_code [] s
| lc_pair : forall p s, like_code p s -> like_code (37%N :: 37%N :: p) s
| lc_percent : forall p any s, Forall (fun c => c <> 10%N) any -> hd 0%N p <> 37%N ->
    like_code p s -> like_code (37%N :: p) (any ++ s)
| lc_char : forall c p x s, c <> 37%N -> ci c x = true -> like_code p s -> like_code (c :: p) (x :: s).

Lemma re_match_any : forall p s, re_match ci (Any :: p) s = true <->
  exists a s', s = a ++ s' /\ Forall (fun c => c <> 10%N) a /\ re_match ci p s' = true.
Proof.
  intros p s.
  assert (U : forall s, re_match ci (Any :: p) s =
     re_match ci p s || match s with [] => false | x :: s' => negb (x =? 10)%N && re_match ci (Any :: p) s' end).
  { intros [|x s0]; reflexivity. }
  induction s as [|x s IH].
  - rewrite U, orb_false_r. split.
    + intro H. exists [], []. auto.
    + intros (a & s' & E & _ & H). symmetry in E. apply app_eq_nil in E as [_ ->]. exact H.
  - rewrite U, orb_true_iff, andb_true_iff, negb_true_iff, N.eqb_neq, IH. split.
    + intros [H|[Hx (a & s' & -> & F & H)]].
      * exists [], (x :: s). auto.
      * exists (x :: a), s'. auto.
    + intros ([|y a] & s' & E & F & H).
      * left. cbn in E. subst. exact H.
      * injection E as -> ->. inversion F; subst. right. split; auto. exists a, s'. auto.
Qed.

Lemma like_tokens_code : forall n p s, (length p <= n)%nat ->
  (re_match ci (like_tokens p) s = true <-> like_code p s).
Proof.
  induction n as [|n IH]; intros p s L.
  - destruct p; [|cbn in L; lia]. cbn. split; auto. intros _. constructor.
  - destruct p as [|c p]; [cbn; split; auto; intros _; constructor|].
    cbn [like_tokens]. destruct (c =? 37)%N eqn:E.
    + apply N.eqb_eq in E. subst c.
      assert (Q : match p with d :: _ => (d =? 37)%N = true | [] => False end \/ hd 0%N p <> 37%N).
      { destruct p as [|d p]; [right; discriminate|]. destruct (d =? 37)%N eqn:F; auto.
        right. apply N.eqb_neq in F. exact F. }
      destruct Q as [Q|Q].
      * destruct p as [|d p]; [destruct Q|]. rewrite Q. apply N.eqb_eq in Q. subst d.
        rewrite IH by (cbn in L; lia). split; [apply lc_pair|].
        intro H. inversion H as [| |? ? ? ? K|]; subst; auto; cbn in *; congruence.
      * assert (T : match p with
                    | d :: r'' => if (d =? 37)%N then like_tokens r'' else Any :: like_tokens p
                    | [] => [Any] end = Any :: like_tokens p).
        { destruct p as [|d p]; auto. cbn in Q. apply N.eqb_neq in Q. rewrite Q. reflexivity. }
        rewrite T, re_match_any. split.
        -- intros (a & s' & -> & F & H). apply lc_percent; auto. apply IH; auto. cbn in L. lia.
        -- intro H. inversion H as [|? ? K|? any s' F K1 K2|]; subst; [cbn in Q; congruence| |congruence].
           exists any, s'. split; auto. split; auto. apply IH; auto. cbn in L; lia.
    + apply N.eqb_neq in E. cbn [re_match]. destruct s as [|x s].
      * split; [discriminate|]. intro H. inversion H; subst; congruence.
      * rewrite andb_true_iff, IH by (cbn in L; lia). split.
        -- intros [H1 H2]. apply lc_char; auto.
        -- intro H. inversion H; subst; try congruence. auto.
Qed.

Fixpoint no_double (p : text) : Prop :=
  match p with
  | 37%N :: ((37%N :: _) as r) => False
  | _ :: r => no_double r
  | [] => True
  end.

Lemma no_double_tail : forall c p, no_double (c :: p) -> no_double p.
Proof.
  intros c p H. cbn in H. destruct c as [|q]; auto.
  repeat (match goal with H : match ?x with _ => _ end |- _ => is_var x; destruct x end; auto); contradiction.
Qed.
Lemma no_double_head : forall p, no_double (37%N :: p) -> hd 0%N p <> 37%N.
Proof. intros [|c p] H; [discriminate|]. cbn [hd]. intro K. subst c. exact H. Qed.

(** For patterns ending in '%' without '_' and "%%", on texts without newline, the two agree. *)
Lemma like_code_sound : forall p s, like_code p s -> Forall (fun c => c <> 95%N) p -> no_double p ->
  forall p0, p = p0 ++ [37%N] -> like p s.
Proof.
  intros p s H. induction H as [s|p s H IH|p any s F Hd H IH|c p x s Hc Hx H IH]; intros U ND p0 E.
  - destruct p0; discriminate.
  - destruct ND.
  - destruct p0 as [|y p0].
    + assert (p = []) by (cbn in E; congruence). subst p. rewrite <- (app_nil_r (any ++ s)). apply like_percent. constructor.
    + assert (p = p0 ++ [37%N]) by (cbn in E; congruence). subst p. apply like_percent. apply (IH ltac:(inversion U; auto) (no_double_tail _ _ ND) p0 eq_refl).
  - destruct p0 as [|y p0]; [cbn in E; congruence|]. assert (E' : p = p0 ++ [37%N]) by (cbn in E; congruence). clear E; rename E' into E.
    apply like_char; auto; [inversion U; auto|].
    apply (IH ltac:(inversion U; auto) (no_double_tail _ _ ND) p0 E).
Qed.
Lemma like_code_complete : forall p s, like p s -> Forall (fun c => c <> 95%N) p -> no_double p ->
  Forall (fun c => c <> 10%N) s -> like_code p s.
Proof.
  intros p s H. induction H as [|p any s H IH|p x s H IH|c p x s Hc Hu Hx H IH]; intros U ND NL.
  - constructor.
  - apply Forall_app in NL as [N1 N2]. apply lc_percent; auto.
    + apply no_double_head. exact ND.
    + apply IH; auto; [inversion U; auto|apply (no_double_tail _ _ ND)].
  - inversion U; congruence.
  - apply lc_char; auto. apply IH; [inversion U; auto|apply (no_double_tail _ _ ND)|inversion NL; auto].
Qed.
End LikeSpec.

(** C20, exactly what the code computes, for every pattern but '%%' itself. *)
Theorem like_code_exact : forall ci p s, p <> [37; 37]%N ->
  sql2 (mysql_like ci) (VStr s) (VStr p) = VInt 1 <-> like_code ci p s.
Proof.
  intros ci p s Hp. rewrite sql2_eq. cbn [mysql_like is_none orb guarded]. unfold like_pattern.
  apply text_eqb_neq in Hp. rewrite Hp. rewrite <- (like_tokens_code ci (length p) p s (le_n _)).
  destruct (re_match ci (like_tokens p) s); cbv; intuition congruence.
Qed.
Print Assumptions like_code_exact.

(** C20 for patterns that end in '%', contain no '_' and no "%%", on texts without newline: LIKE is
    the SQL LIKE. *)
Theorem like_final_percent : forall ci p0 s,
  Forall (fun c => c <> 95%N) p0 -> no_double (p0 ++ [37%N]) -> Forall (fun c => c <> 10%N) s ->
  (sql2 (mysql_like ci) (VStr s) (VStr (p0 ++ [37%N])) = VInt 1 <-> like ci (p0 ++ [37%N]) s).
Proof.
  intros ci p0 s U ND NL.
  assert (U' : Forall (fun c => c <> 95%N) (p0 ++ [37%N])) by (apply Forall_app; split; auto; repeat constructor; discriminate).
  assert (P : p0 ++ [37%N] <> [37; 37]%N).
  { intro K. rewrite K in ND. exact ND. }
  rewrite (like_code_exact ci _ s P). split.
  - intro H. apply (like_code_sound ci _ s H U' ND p0 eq_refl).
  - intro H. apply (like_code_complete ci _ s H U' ND NL).
Qed.
Print Assumptions like_final_percent.

(** NULL operands give NULL. *)
Theorem like_null : forall ci s r, s = VNone \/ r = VNone -> sql2 (mysql_like ci) s r = VNone.
Proof. intros ci s r [->| ->]; rewrite sql2_eq; [destruct r; reflexivity|reflexivity]. Qed.
Print Assumptions like_null.

Example like_ex :
  sql2 (mysql_like N.eqb) (VStr (t "hello world")) (VStr (t "%lo w%")) = VInt 1 /\
  sql2 (mysql_like N.eqb) (VStr (t "hello world")) (VStr (t "lo%")) = VInt 0 /\
  no_double (t "%lo w%").
Proof. repeat split; vm_compute; auto. Qed.

(** C20 is false of the code elsewhere: 'abc' LIKE 'ab' is 1 for every text that starts with the
    pattern; '_' is not a wildcard; "%%" is not '%'; '%' stops at a newline. *)
Theorem like_refuted :
  (forall p s, Forall (fun c => c <> 37%N) p -> sql2 (mysql_like N.eqb) (VStr (p ++ s)) (VStr p) = VInt 1) /\
  (~ like N.eqb (t "ab") (t "abc")) /\
  (sql2 (mysql_like N.eqb) (VStr (t "abc")) (VStr (t "a_c")) = VInt 0 /\ like N.eqb (t "a_c") (t "abc")) /\
  (sql2 (mysql_like N.eqb) (VStr (t "axb")) (VStr (t "a%%b")) = VInt 0 /\ like N.eqb (t "a%%b") (t "axb")) /\
  (sql2 (mysql_like N.eqb) (VStr [97; 10; 98]%N) (VStr (t "a%b")) = VInt 0 /\ like N.eqb (t "a%b") [97; 10; 98]%N).
Proof.
  split; [|split; [|split; [|split]]].
  - intros p s H. apply like_code_exact.
    + intro K. subst p. inversion H; congruence.
    + induction H as [|c p Hc H IH]; [constructor|]. apply lc_char; auto. apply N.eqb_refl.
  - intro H. repeat match goal with K : like _ _ _ |- _ => inversion K; subst; clear K end.
  - split; [vm_compute; reflexivity|]. apply like_char; try discriminate; [reflexivity|].
    apply like_underscore. apply like_char; try discriminate; [reflexivity|]. constructor.
  - split; [vm_compute; reflexivity|]. apply like_char; try discriminate; [reflexivity|].
    apply (like_percent N.eqb _ (t "x")). apply (like_percent N.eqb _ []). apply like_char; try discriminate; [reflexivity|]. constructor.
  - split; [vm_compute; reflexivity|]. apply like_char; try discriminate; [reflexivity|].
    apply (like_percent N.eqb _ [10%N]). apply like_char; try discriminate; [reflexivity|]. constructor.
Qed.
Print Assumptions like_refuted.

(** ** C45: the REGEXP functions agree on the k-th match *)
Section R.
Variable search : text -> option (nat * nat).
Hypothesis spans : forall cs a b, search cs = Some (a, b) -> (a <= b <= length cs)%nat.

Lemma loops_agree : forall n s rs cs pre occ, s = pre ++ cs ->
  let pos := Z.of_nat (length pre) + 1 in
  let p := instr_loop search n cs pos occ false in
  let q := instr_loop search n cs pos occ true in
  (p = 0 /\ q = 0 /\ substr_loop search n cs occ = None /\ replace_loop search n s rs cs pos occ = s) \/
  (exists x m y, s = x ++ m ++ y /\ p = Z.of_nat (length x) + 1 /\ q = p + Z.of_nat (length m) /\
     substr_loop search n cs occ = Some m /\ replace_loop search n s rs cs pos occ = x ++ rs ++ y).
Proof.
  induction n as [|n IH]; intros s rs cs pre occ E; cbv zeta; cbn [instr_loop substr_loop replace_loop].
  - left. auto.
  - destruct cs as [|c0 cs0]; [left; auto|]. set (cs := c0 :: cs0) in *. clearbody cs. clear c0 cs0.
    destruct (search cs) as [[a b]|] eqn:S; [|left; auto].
    assert (B := spans cs a b S). destruct (occ <=? 1).
    + right. exists (pre ++ firstn a cs), (firstn (b - a) (skipn a cs)), (skipn b cs).
      assert (M : firstn a cs ++ firstn (b - a) (skipn a cs) ++ skipn b cs = cs).
      { rewrite <- (firstn_skipn a cs) at 4. f_equal. rewrite <- (firstn_skipn (b - a) (skipn a cs)) at 2. f_equal.
        rewrite skipn_skipn. f_equal. lia. }
      split; [rewrite <- app_assoc, M; exact E|].
      assert (La : length (firstn a cs) = a) by (rewrite firstn_length; lia).
      assert (Lm : length (firstn (b - a) (skipn a cs)) = (b - a)%nat) by (rewrite firstn_length, skipn_length; lia).
      split; [rewrite app_length, La; lia|]. split; [rewrite Lm; lia|]. split.
      * f_equal. unfold pyslice, clampidx.
        replace (Z.of_nat a <? 0) with false by (symmetry; apply Z.ltb_ge; lia).
        replace (Z.of_nat b <? 0) with false by (symmetry; apply Z.ltb_ge; lia).
        rewrite !Z.min_l by lia. rewrite !Nat2Z.id. reflexivity.
      * assert (Ls : length s = (length pre + length cs)%nat) by (rewrite E; apply app_length).
        f_equal; [|f_equal].
        -- unfold pyslice, clampidx.
           replace (Z.of_nat (length pre) + 1 + Z.of_nat a - 1) with (Z.of_nat (length pre + a)) by lia.
           replace (Z.of_nat (length pre + a) <? 0) with false by (symmetry; apply Z.ltb_ge; lia).
           rewrite Z.min_l by lia. rewrite Nat2Z.id, Nat.sub_0_r. cbn [skipn]. rewrite E.
           rewrite firstn_app. rewrite firstn_all2 by lia. f_equal. f_equal. lia.
        -- unfold pyslice, clampidx.
           replace (Z.of_nat (length pre) + 1 + Z.of_nat b - 1) with (Z.of_nat (length pre + b)) by lia.
           replace (Z.of_nat (length pre + b) <? 0) with false by (symmetry; apply Z.ltb_ge; lia).
           rewrite Z.min_l by lia. rewrite Nat2Z.id. rewrite firstn_all2 by (rewrite skipn_length; lia).
           rewrite E, skipn_app. rewrite skipn_all2 by lia. cbn [app]. f_equal. lia.
    + specialize (IH s rs (skipn b cs) (pre ++ firstn b cs) (occ - 1)). cbv zeta in IH.
      assert (P : Z.of_nat (length (pre ++ firstn b cs)) + 1 = Z.of_nat (length pre) + 1 + Z.of_nat b).
      { rewrite app_length, firstn_length. lia. }
      rewrite P in IH. apply IH. rewrite <- app_assoc, firstn_skipn. exact E.
Qed.
End R.

(** For every matcher that returns spans inside the searched text, every text, start position >= 1 and
    occurrence >= 1: either there is no such match, and INSTR is 0, SUBSTR is NULL and REPLACE returns
    the text unchanged; or the text splits as x ++ m ++ y where INSTR returns the position of m (or of
    its end), SUBSTR returns m and REPLACE replaces exactly m. *)
Theorem regexp_functions_agree : forall search,
  (forall cs a b, search cs = Some (a, b) -> (a <= b <= length cs)%nat) ->
  forall sub s rs pos occ, 1 <= pos -> 1 <= occ ->
  let p := regexp_instr search s pos occ false in
  let q := regexp_instr search s pos occ true in
  (p = 0 /\ q = 0 /\ regexp_substr search s pos occ = None /\ regexp_replace search sub s rs pos occ = s) \/
  (exists x m y, s = x ++ m ++ y /\ p = Z.of_nat (length x) + 1 /\ q = p + Z.of_nat (length m) /\
     regexp_substr search s pos occ = Some m /\ regexp_replace search sub s rs pos occ = x ++ rs ++ y).
Proof.
  intros search Hs sub s rs pos occ Hp Ho. cbv zeta. unfold regexp_instr, regexp_substr, regexp_replace. cbv zeta.
  replace (occ <=? 0) with false by (symmetry; apply Z.leb_gt; lia).
  destruct (Z.le_gt_cases (pos - 1) (Z.of_nat (length s))) as [L|L].
  - set (k := Z.to_nat (pos - 1)).
    assert (E : pyslice s (Some (pos - 1)) None = skipn k s).
    { unfold pyslice, clampidx. replace (pos - 1 <? 0) with false by (symmetry; apply Z.ltb_ge; lia).
      rewrite Z.min_l by lia. fold k. apply firstn_all2. rewrite skipn_length. lia. }
    rewrite E.
    assert (G := loops_agree search Hs (S (Z.to_nat occ)) s rs (skipn k s) (firstn k s) occ (eq_sym (firstn_skipn k s))).
    cbv zeta in G. replace (Z.of_nat (length (firstn k s)) + 1) with pos in G by (rewrite firstn_length; unfold k; lia).
    exact G.
  - assert (E : pyslice s (Some (pos - 1)) None = []).
    { unfold pyslice, clampidx. replace (pos - 1 <? 0) with false by (symmetry; apply Z.ltb_ge; lia).
      rewrite Z.min_r by lia. rewrite Nat2Z.id, Nat.sub_diag. reflexivity. }
    rewrite E. left. cbn. auto.
Qed.
Print Assumptions regexp_functions_agree.

(** a concrete matcher: first 'b' *)
Definition search_b (cs : text) : option (nat * nat) :=
  (fix go (s : text) (i : nat) := match s with [] => None | c :: r => if (c =? 98)%N then Some (i, S i) else go r (S i) end) cs 0%nat.
Example regexp_ex :
  regexp_instr search_b (t "abcabc") 1 2 false = 5 /\ regexp_substr search_b (t "abcabc") 1 2 = Some (t "b") /\
  regexp_replace search_b (fun x => x) (t "abcabc") (t "X") 1 2 = t "abcaXc".
Proof. repeat split; vm_compute; reflexivity. Qed.
Example search_b_spans : forall cs a b, search_b cs = Some (a, b) -> (a <= b <= length cs)%nat.
Proof.
  intros cs a b. unfold search_b.
  assert (G : forall s i, (fix go (s : text) (i : nat) := match s with [] => None | c :: r => if (c =? 98)%N then Some (i, S i) else go r (S i) end) s i = Some (a, b) -> (i <= a <= b /\ b <= i + length s)%nat).
  { induction s as [|c s IH]; intros i H; [discriminate|]. destruct (c =? 98)%N.
    - injection H as <- <-. cbn [length]. lia.
    - apply IH in H. cbn [length]. lia. }
  intro H. apply G in H. lia.
Qed.

(** REGEXP_REPLACE with a start position > 1 and all occurrences (the default) loses the text before
    the start position. *)
Theorem regexp_replace_prefix_refuted : forall search sub rs,
  (forall s, search s = None -> sub s = s) -> search (t "c") = None ->
  regexp_replace search sub (t "abc") rs 3 0 = t "c".
Proof. intros search sub rs H N. unfold regexp_replace. cbn [Z.leb]. apply (H (t "c") N). Qed.
Print Assumptions regexp_replace_prefix_refuted.

(** The last of 'c' and 'i' in the match type decides case sensitivity; insensitive by default. *)
Theorem flags_last_wins : forall l1 c l2,
  (c = 99 \/ c = 105)%N -> Forall (fun x => x <> 99 /\ x <> 105)%N l2 ->
  f_i (parse_flags (l1 ++ c :: l2)) = (c =? 105)%N /\
  (Forall (fun x => x <> 99 /\ x <> 105)%N l1 -> f_i (parse_flags l1) = true).
Proof.
  intros l1 c l2 Hc H2.
  assert (K : forall l f, Forall (fun x => x <> 99 /\ x <> 105)%N l -> f_i (flags_loop l f) = f_i f).
  { intros l f H. revert f. induction H as [|x l [A B] H IH]; intros f; [reflexivity|]. cbn [flags_loop].
    apply N.eqb_neq in A, B. rewrite A, B. rewrite IH.
    destruct (x =? 109)%N, (x =? 110)%N, (x =? 117)%N; reflexivity. }
  split.
  - unfold parse_flags. generalize (mkflags true false false false) as f.
    induction l1 as [|x l1 IH]; intros f; cbn [app flags_loop].
    + rewrite K by auto. destruct Hc; subst c; reflexivity.
    + apply IH.
  - intro H. unfold parse_flags. rewrite K by auto. reflexivity.
Qed.
Print Assumptions flags_last_wins.

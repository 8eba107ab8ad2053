(** Lemmas about references to tables. *)
From Coq Require Import Lia.
From Verif Require Import Base PyVal Insert_Model Annot_Model Annot_Spec Annot_Props Str_Model Str_Spec Str_Proofs Table_Syntax Table_Model Table_Spec.
Open Scope nat_scope.

Lemma mem_iff : forall x l, mem x l = true <-> In x l.
Proof.
  intros x l. unfold mem. rewrite existsb_exists. split.
  - intros (y & I & E). apply text_eqb_spec in E. subst y. exact I.
  - intros I. exists x. split; [exact I|apply text_eqb_refl].
Qed.
Lemma mem_no : forall x l, mem x l = false <-> ~ In x l.
Proof. intros x l. rewrite <- mem_iff. destruct (mem x l); intuition congruence. Qed.

Lemma commas_sep : forall l, commas l = sep 44%N l.
Proof. induction l as [|o [|p l] IH]; [reflexivity|reflexivity|]. cbn [commas sep]. cbn [commas sep] in IH. rewrite IH. reflexivity. Qed.
Lemma split_options_written : forall n tb opts, written n tb opts -> split_options n = (tb, opts).
Proof.
  intros n tb opts W. unfold split_options. destruct W as [n [N|N]|tb opts rest N1 N2 N3 N4].
  - rewrite Annot_Props.index_none by exact N. reflexivity.
  - destruct (Insert_Model.index_of 60 n); [|reflexivity]. unfold rindex_of. rewrite Annot_Props.index_none; [reflexivity|]. rewrite <- in_rev. exact N.
  - rewrite Annot_Props.index_first by exact N1. change (tb ++ 60%N :: commas opts ++ 62%N :: rest) with (tb ++ (60%N :: commas opts) ++ 62%N :: rest).
    rewrite app_assoc, rindex_last by exact N2. rewrite <- app_assoc. change ((60%N :: commas opts) ++ 62%N :: rest) with (60%N :: commas opts ++ 62%N :: rest).
    rewrite between_mid, commas_sep, split_sep by assumption. f_equal. rewrite firstn_app, firstn_all, Nat.sub_diag. cbn [firstn]. apply app_nil_r.
Qed.

Lemma dots_app : forall a b, a <> [] -> b <> [] -> dots (a ++ b) = dots a ++ t "." ++ dots b.
Proof.
  induction a as [|x [|y a] IH]; intros b A B; [congruence| |].
  - destruct b; [congruence|]. reflexivity.
  - change (dots ((x :: y :: a) ++ b)) with (x ++ 46%N :: dots ((y :: a) ++ b)). rewrite IH by (congruence || exact B).
    change (dots (x :: y :: a)) with (x ++ 46%N :: dots (y :: a)). rewrite <- app_assoc. reflexivity.
Qed.
Lemma names_in_some : forall d, names_in d <> [].
Proof. induction d as [n|a IHa b IHb]; cbn; [congruence|]. intro E. apply app_eq_nil in E. tauto. Qed.
Lemma dotted_dots : forall d, dotted_name d = dots (names_in d).
Proof. induction d as [n|a IHa b IHb]; [reflexivity|]. cbn [dotted_name names_in]. rewrite dots_app, IHa, IHb by apply names_in_some. reflexivity. Qed.
Lemma spelled_this : forall th n env, spelled th n -> this_name env th = Ok n.
Proof. intros th n env S. destruct S as [n|a b]; [reflexivity|]. cbn [this_name]. rewrite dotted_dots. reflexivity. Qed.

(** Splitting at the first occurrence. *)
Lemma split_head : forall d r p cur, d <> [] -> (forall i, i < length p -> ~ occurs_at d (p ++ d ++ r) i) ->
  split_go d 0 cur (p ++ d ++ r) = (rev cur ++ p) :: split_go d 0 [] r.
Proof.
  intros d r. induction p as [|c p IH]; intros cur D H.
  - rewrite app_nil_r. destruct d as [|x d]; [congruence|]. change ([] ++ (x :: d) ++ r) with (x :: d ++ r). cbn [split_go].
    assert (prefixb (x :: d) (x :: d ++ r) = true) as -> by (apply prefixb_spec; exists r; reflexivity). cbn [length]. rewrite Nat.sub_succ, Nat.sub_0_r, split_go_skip. reflexivity.
  - change ((c :: p) ++ d ++ r) with (c :: p ++ d ++ r). cbn [split_go].
    assert (prefixb d (c :: p ++ d ++ r) = false) as ->.
    { destruct (prefixb d (c :: p ++ d ++ r)) eqn:P; [|reflexivity]. exfalso. apply (H 0); [cbn; lia|]. apply occurs_zero. exact P. }
    rewrite IH; [|exact D|].
    + cbn [rev]. rewrite <- app_assoc. reflexivity.
    + intros i L K. apply (H (S i)); [cbn; lia|]. change ((c :: p) ++ d ++ r) with (c :: p ++ d ++ r). apply occurs_shift. exact K.
Qed.
(** The head of a split at ::, of a text in which no :: comes earlier. *)
Lemma occurs_prefix : forall d a b i, occurs_at d a i -> occurs_at d (a ++ b) i.
Proof. intros d a b i (p & r & E & L). exists p, (r ++ b). split; [|exact L]. rewrite E, <- !app_assoc. reflexivity. Qed.
Lemma occurs_cut : forall d a b i, occurs_at d (a ++ b) i -> i + length d <= length a -> occurs_at d a i.
Proof.
  intros d a b i (p & r & E & L) H. exists p, (skipn (i + length d) a). split; [|exact L].
  assert (F : firstn (i + length d) a = p ++ d).
  { assert (F : firstn (i + length d) (a ++ b) = p ++ d).
    { rewrite E, app_assoc, firstn_app. replace (i + length d) with (length (p ++ d)) by (rewrite app_length; lia). rewrite firstn_all, Nat.sub_diag. cbn [firstn]. apply app_nil_r. }
    rewrite firstn_app in F. replace (i + length d - length a) with 0 in F by lia. cbn [firstn] in F. rewrite app_nil_r in F. exact F. }
  rewrite <- (firstn_skipn (i + length d) a) at 1. rewrite F, <- app_assoc. reflexivity.
Qed.
Lemma head_clear : forall n r, clear n -> hd [] (parts (t "::") (n ++ t "::" ++ r)) = n.
Proof.
  intros n r C. unfold parts. rewrite split_head; [reflexivity|discriminate|]. intros i L K. apply (C i).
  change (t "::" ++ r) with (t ":" ++ t ":" ++ r) in K. rewrite app_assoc in K. apply occurs_cut in K; [exact K|]. rewrite app_length. change (length (t "::")) with 2. change (length (t ":")) with 1. lia.
Qed.

(** The last part of a split at " use ". *)
Lemma split_nonempty : forall d s k cur, split_go d k cur s <> [].
Proof. intros d s. induction s as [|c s IH]; intros k cur; cbn [split_go]; [discriminate|]. destruct k; [destruct (prefixb d (c :: s)); [discriminate|apply IH]|apply IH]. Qed.
Lemma last_cons : forall A (x d : A) l, l <> [] -> last (x :: l) d = last l d.
Proof. intros A x d [|y l] H; [congruence|reflexivity]. Qed.
Lemma split_no_blank : forall ty cur, ~ In 32%N ty -> split_go (t " use ") 0 cur ty = [rev cur ++ ty].
Proof.
  induction ty as [|c ty IH]; intros cur H; [cbn; rewrite app_nil_r; reflexivity|]. cbn [split_go].
  assert (prefixb (t " use ") (c :: ty) = false) as ->.
  { cbn [t prefixb]. destruct (prefixb (t " use ") (c :: ty)) eqn:P; [|exact P]. exfalso. apply prefixb_spec in P as [r E]. injection E as E1 E2. apply H. left. exact E1. }
  rewrite IH by (intro K; apply H; right; exact K). cbn [rev]. rewrite <- app_assoc. reflexivity.
Qed.
Lemma last_use : forall ty, ~ In 32%N ty -> forall x k cur, k <= length x -> last (split_go (t " use ") k cur (x ++ t "::id use " ++ ty)) [] = ty.
Proof.
  intros ty H. induction x as [|c x IH]; intros k cur L.
  - cbn in L. assert (k = 0) as -> by lia. change (t "::id use " ++ ty) with (t "::id" ++ t " use " ++ ty).
    change ([] ++ t "::id" ++ t " use " ++ ty) with (t "::id" ++ t " use " ++ ty).
    rewrite split_head; [|discriminate|].
    + rewrite last_cons by apply split_nonempty. rewrite split_no_blank by exact H. reflexivity.
    + intros i Li K. cbn in Li. change (t "::id" ++ t " use " ++ ty) with (58%N :: 58%N :: 105%N :: 100%N :: t " use " ++ ty) in K. destruct i as [|[|[|[|i]]]]; [| | | |lia]; rewrite ?occurs_shift in K; apply (proj1 (occurs_zero _ _)) in K; discriminate K.
  - cbn [app split_go]. destruct k as [|k]; [|apply IH; cbn in L; lia].
    destruct (prefixb (t " use ") (c :: x ++ t "::id use " ++ ty)) eqn:P.
    + rewrite last_cons by apply split_nonempty. apply IH. change (length (t " use ") - 1) with 4.
      destruct x as [|x1 [|x2 [|x3 [|x4 x]]]]; [exfalso..|cbn; lia]; apply prefixb_spec in P as [r E]; discriminate E.
    + apply IH. lia.
Qed.
Lemma infix_use : forall x y, infixb (t " use ") (x ++ t " use " ++ y) = true.
Proof.
  induction x as [|c x IH]; intros y.
  - change ([] ++ t " use " ++ y) with (32%N :: t "use " ++ y). cbn [infixb]. assert (prefixb (t " use ") (32%N :: t "use " ++ y) = true) as -> by (apply prefixb_spec; exists y; reflexivity). reflexivity.
  - change ((c :: x) ++ t " use " ++ y) with (c :: x ++ t " use " ++ y). cbn [infixb]. rewrite IH. apply Bool.orb_true_r.
Qed.

(** The type of an INSERT. *)
Section Upper.
Variable up : N -> text.
Hypothesis stable : forall c, (128 <= c)%N -> upper up (up c) = up c.
Lemma upper_upper : forall s, upper up (upper up s) = upper up s.
Proof.
  induction s as [|c s IH]; [reflexivity|]. unfold upper in *. cbn [flat_map]. rewrite flat_map_app, IH. f_equal.
  destruct (N.ltb_spec c 128) as [L|L]; [|apply stable, L]. cbn [flat_map]. rewrite app_nil_r.
  assert (upper_ascii (upper_ascii c) = upper_ascii c /\ (upper_ascii c < 128)%N) as [E B].
  { unfold upper_ascii. destruct (N.leb_spec 97 c); cbn [andb]; [destruct (N.leb_spec c 122)|]; (split; [|lia]).
    - destruct (N.leb_spec 97 (c - 32)); cbn [andb]; [lia|reflexivity].
    - destruct (N.leb_spec 97 c); cbn [andb]; [|lia]. destruct (N.leb_spec c 122); [lia|reflexivity].
    - destruct (N.leb_spec 97 c); cbn [andb]; [lia|reflexivity]. }
  apply N.ltb_lt in B. rewrite B, E. reflexivity.
Qed.
Lemma upper_blank : forall o, In (upper up o) update_types -> ~ In 32%N o.
Proof.
  intros o H I. assert (J : In 32%N (upper up o)). { unfold upper. apply in_flat_map. exists 32%N. split; [exact I|]. left. reflexivity. }
  cbn [update_types In] in H. decompose [or] H; try contradiction; match goal with E : _ = upper up o |- _ => rewrite <- E in J end; cbn in J; decompose [or] J; try contradiction; discriminate.
Qed.
Lemma find_first : forall f pre (o : text) post, f o = true -> (forall x, In x pre -> f x = false) -> find f (pre ++ o :: post) = Some o.
Proof.
  intros f. induction pre as [|x pre IH]; intros o post F H; cbn [app find]; [rewrite F; reflexivity|].
  rewrite (H x (or_introl eq_refl)). apply IH; [exact F|]. intros y I. apply H. right. exact I.
Qed.
Lemma find_no : forall f (l : list text), (forall x, In x l -> f x = false) -> find f l = None.
Proof. intros f. induction l as [|x l IH]; intros H; [reflexivity|]. cbn [find]. rewrite (H x (or_introl eq_refl)). apply IH. intros y I. apply H. right. exact I. Qed.
Lemma recognised : forall o, mem (upper up o) update_types = true <-> In (upper up o) type_names. Proof. intros o. apply mem_iff. Qed.
Lemma unrecognised : forall o, mem (upper up o) update_types = false <-> ~ In (upper up o) type_names. Proof. intros o. apply mem_no. Qed.
Lemma fixed_types : forall ty, In ty type_names -> upper up ty = ty.
Proof. intros ty H. cbn [type_names In] in H. decompose [or] H; try contradiction; subst ty; reflexivity. Qed.

Definition setting_type (s : text) : text := match assoc (upper up s) output_type_names with Some x => x | None => upper up s end.
Lemma setting_iff : forall s, (forall ty, In (upper up s, ty) setting_names -> setting_type s = ty /\ In ty type_names) /\
  (~ In (upper up s) (map fst setting_names) -> ~ In (setting_type s) type_names).
Proof.
  intros s. unfold setting_type. generalize (upper up s) as u. intros u. split.
  - intros ty H. cbn [setting_names In] in H. decompose [or] H; try contradiction; match goal with E : (_, _) = (_, _) |- _ => injection E as <- <- end; split; try reflexivity; cbn; tauto.
  - intros H. destruct (assoc u output_type_names) as [x|] eqn:E.
    + exfalso. apply H. cbn [output_type_names assoc] in E. cbn [setting_names map fst In].
      repeat match type of E with (if text_eqb ?a ?b then _ else _) = _ => destruct (text_eqb a b) eqn:Q; [apply text_eqb_spec in Q; subst u; tauto|clear Q] end. discriminate E.
    + intros I. apply H. cbn [type_names In] in I. cbn [setting_names map fst In]. intuition.
Qed.

Lemma chosen_type : forall opts setting ty, chosen (upper up) opts setting ty ->
  update_type up (add_setting up setting opts) = ty /\ ~ In 32%N ty.
Proof.
  intros opts setting ty C. unfold update_type. destruct C as [pre o post setting H1 H2|opts s ty H1 H2|opts setting H1 H2].
  - split; [|apply upper_blank; exact H1].
    assert (F : forall x, In x pre -> mem (upper up x) update_types = false) by (intros x I; apply unrecognised, H2, I).
    unfold add_setting. destruct (given setting) as [s|]; [|rewrite find_first; [reflexivity|apply recognised, H1|exact F]].
    cbv zeta. destruct (mem _ (pre ++ o :: post)); [rewrite find_first; [reflexivity|apply recognised, H1|exact F]|].
    rewrite <- app_assoc. cbn [app]. rewrite find_first; [reflexivity|apply recognised, H1|exact F].
  - destruct (setting_iff s) as [A _]. destruct (A ty H2) as [B I]. split; [|apply upper_blank; rewrite fixed_types by exact I; exact I].
    assert (given (Some s) = Some s) as E. { destruct s; [|reflexivity]. exfalso. cbn in H2. decompose [or] H2; try contradiction; discriminate. }
    unfold add_setting. rewrite E. cbv zeta. change (match assoc (upper up s) output_type_names with Some x => x | None => upper up s end) with (setting_type s). rewrite B.
    assert (mem ty opts = false) as ->. { apply mem_no. intro K. apply (H1 ty K). rewrite fixed_types by exact I. exact I. }
    rewrite find_first; [reflexivity| |].
    + apply recognised. rewrite fixed_types by exact I. exact I.
    + intros x K. apply unrecognised, H1, K.
  - split; [|cbn; intuition discriminate]. unfold add_setting. destruct (given setting) as [s|] eqn:G.
    + assert (setting = Some s) as ->. { destruct setting as [[|c r]|]; cbn in G; congruence. }
      cbv zeta. change (match assoc (upper up s) output_type_names with Some x => x | None => upper up s end) with (setting_type s).
      specialize (H2 s eq_refl). destruct (setting_iff s) as [_ B]. specialize (B H2).
      assert (F : forall l, (forall x, In x l -> ~ In (upper up x) type_names) -> find (fun o => mem (upper up o) update_types) l = None).
      { intros l K. apply find_no. intros x I. apply unrecognised, K, I. }
      destruct (mem (setting_type s) opts); rewrite F; try reflexivity; try exact H1.
      intros x I. apply in_app_or in I as [I|[<-|[]]]; [apply H1, I|].
      destruct (assoc (upper up s) output_type_names) as [y|] eqn:A.
      * exfalso. apply B. unfold setting_type. rewrite A. clear -A. cbn [output_type_names assoc] in A.
        repeat match type of A with (if text_eqb ?a ?b then _ else _) = _ => destruct (text_eqb a b); [injection A as <-; cbn; tauto|] end. discriminate A.
      * unfold setting_type in *. rewrite A in *. rewrite upper_upper. exact B.
    + rewrite find_no; [reflexivity|]. intros x I. apply unrecognised, H1, I.
Qed.
End Upper.

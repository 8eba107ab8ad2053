From Verif Require Import Base Parser_Model Parser_Spec Parser_Proofs.

(** Round trip and comment insertion, derived from split_correct. *)
Section Cor.
Variable al : N -> bool.
Hypothesis al_slash : al 47%N = false.
Hypothesis al_star : al 42%N = false.

Lemma classify_length : forall s m, length (fst (classify m s)) = length s.
Proof.
  induction s as [|c s IH]; intro m; [destruct m; reflexivity|].
  cbn [classify]. destruct m;
  repeat match goal with |- context [if ?b then _ else _] => destruct b end; cbn [fst length]; rewrite IH; reflexivity.
Qed.

Definition qmode (m : mode) : Prop := match m with MCode | MQuote _ _ => True | _ => False end.

Lemma classify_sep : forall s m r, qmode m -> snd (classify m s) = true -> ~ In Comment (fst (classify m s)) ->
  classify m (s ++ 59%N :: r) = (fst (classify m s) ++ Sep :: fst (classify MCode r), snd (classify MCode r)).
Proof.
  induction s as [|c s IH]; intros m r Hm Hc Hn.
  - destruct m; simpl in Hc; try discriminate; try contradiction. destruct r; reflexivity.
  - cbn [app]. cbn [classify] in *. destruct m as [|q odd| | |]; try contradiction.
    + assert (ST : forall a b, (b =? 59)%N = false -> starts2 a b (c :: s ++ 59%N :: r) = starts2 a b (c :: s)).
      { intros a b Hb. destruct s; cbn [starts2 app]; auto. rewrite (N.eqb_sym 59 b), Hb, andb_false_r. reflexivity. }
      rewrite !ST by reflexivity.
      repeat match type of Hn with context [if ?b then _ else _] => destruct b end;
      cbn [fst snd] in *; try (exfalso; apply Hn; left; reflexivity);
      rewrite IH; try exact I; auto; intro K; apply Hn; right; exact K.
    + destruct (_ && _); cbn [fst snd] in *; rewrite IH; try exact I; auto; intro K; apply Hn; right; exact K.
Qed.

Lemma combine_sepfree : forall k l, ~ In Sep k -> sepfree (combine k l).
Proof.
  induction k as [|x k IH]; intros [|y l] H; simpl; try constructor; auto.
  - simpl. intro; subst; apply H; left; auto.
  - apply IH. intro; apply H; right; auto.
Qed.

Lemma txt_lined : forall k s L, length k = length s -> txt (combine k (lined L s)) = s.
Proof.
  induction k as [|x k IH]; intros [|c s] L H; simpl in *; try discriminate; auto.
  f_equal. apply IH. congruence.
Qed.

Definition texts_from (L : nat) (s : text) : list (text * nat) :=
  flat_map (stmt_of al) (groups (combine (classes s) (lined L s))).

Lemma stmt_of_plain : forall s L, plain_stmt al s ->
  stmt_of al (combine (classes s) (lined L s)) = [(s, L)].
Proof.
  intros [|c s] L [H0 [Hc [Hs Hn]]]; [contradiction|]. destruct H0 as [Ha Hh].
  destruct (classes (c :: s)) as [|k0 k] eqn:E; [discriminate|]. simpl in Hh. inversion Hh; subst k0.
  unfold stmt_of. cbn [lined combine drop_until starts_stmt]. rewrite Ha.
  assert (HL : length (Code :: k) = length (c :: s)) by (rewrite <- E; apply classify_length).
  fold (txt (combine k (lined (if (c =? 10)%N then S L else L) s))).
  rewrite txt_lined by (simpl in HL; congruence). reflexivity.
Qed.

Lemma texts_from_sep : forall s L r, plain_stmt al s ->
  texts_from L (s ++ 59%N :: r) = (s, L) :: texts_from (L + count_nl s) r.
Proof.
  intros s L r H. destruct H as [H0 [Hc [Hs Hn]]].
  unfold texts_from, classes. unfold classes, closed in *. rewrite classify_sep; auto; [|exact I]. cbn [fst].
  rewrite lined_app, combine_app by (rewrite classify_length, lined_length; reflexivity).
  cbn [lined combine]. rewrite groups_sep by (apply combine_sepfree; auto).
  cbn [flat_map]. fold (classes s). rewrite stmt_of_plain by (split; auto). reflexivity.
Qed.

Lemma texts_from_one : forall s L, plain_stmt al s -> texts_from L s = [(s, L)].
Proof.
  intros s L H. assert (H' := H). destruct H as [H0 [Hc [Hs Hn]]].
  unfold texts_from. rewrite groups_one by (apply combine_sepfree; auto).
  cbn [flat_map]. rewrite stmt_of_plain by auto. reflexivity.
Qed.

Lemma plain_none : forall s k, ~ In Comment k -> comments_plain_in s k.
Proof. intros s k H i Hi. exfalso. apply H. eapply nth_error_In. exact Hi. Qed.

Lemma join_semi_cons : forall s x l, join_semi (s :: x :: l) = s ++ 59%N :: join_semi (x :: l).
Proof. reflexivity. Qed.

Lemma join_classes : forall l, Forall (plain_stmt al) l ->
  closed (join_semi l) = true /\ ~ In Comment (classes (join_semi l)).
Proof.
  induction l as [|s l IH]; intro H; [split; [reflexivity|intros []]|].
  inversion H as [|? ? Hs Hl]; subst. destruct (IH Hl) as [IH1 IH2].
  destruct l as [|x l].
  - simpl. destruct Hs as [_ [A [_ B]]]. auto.
  - rewrite join_semi_cons. unfold closed, classes in *. destruct Hs as [_ [A [_ B]]].
    rewrite classify_sep; auto; [|exact I]. cbn [fst snd]. split; auto.
    intro K. apply in_app_or in K as [K|[K|K]]; [apply B|discriminate|apply IH2]; auto.
Qed.

Lemma texts_join : forall l L, Forall (plain_stmt al) l -> texts_from L (join_semi l) = with_lines L l.
Proof.
  induction l as [|s l IH]; intros L H; [reflexivity|].
  inversion H as [|? ? Hs Hl]; subst. destruct l as [|x l].
  - simpl. apply texts_from_one. exact Hs.
  - rewrite join_semi_cons, texts_from_sep by auto. rewrite IH by auto. reflexivity.
Qed.

Lemma split_join : forall l, Forall (plain_stmt al) l ->
  exists s, split al (join_semi l) = Done s (with_lines 1 l).
Proof.
  intros l H. destruct (join_classes l H) as [A B].
  assert (C := split_correct al al_slash (join_semi l) (plain_none _ _ B)).
  rewrite A in C. destruct C as [s C]. exists s. rewrite C. f_equal. apply texts_join. exact H.
Qed.

(** ** Inserting a comment between statements *)
Lemma classify_line : forall b r, ~ In 10%N b ->
  classify MLine (b ++ 10%N :: r) = (repeat Comment (S (length b)) ++ fst (classify MCode r), snd (classify MCode r)).
Proof.
  induction b as [|c b IH]; intros r H.
  - reflexivity.
  - cbn [app classify length]. destruct (N.eqb_spec c 10); [exfalso; apply H; left; auto|].
    rewrite IH by (intro; apply H; right; auto). reflexivity.
Qed.

Lemma classify_block : forall b r star, ~ In 42%N b -> ~ In 47%N b ->
  classify (MBlock star) (b ++ 42%N :: 47%N :: r) =
  (repeat Comment (length b + 2) ++ fst (classify MCode r), snd (classify MCode r)).
Proof.
  induction b as [|c b IH]; intros r star H1 H2.
  - cbn [app classify length]. destruct star; reflexivity.
  - cbn [app classify length plus]. destruct (N.eqb_spec c 47); [exfalso; apply H2; left; auto|].
    rewrite andb_false_r. destruct (N.eqb_spec c 42); [exfalso; apply H1; left; auto|].
    rewrite IH; [reflexivity|intro K; apply H1; right; exact K|intro K; apply H2; right; exact K].
Qed.

Lemma classify_comment : forall cm r, good_comment cm ->
  classify MCode (cm ++ r) = (repeat Comment (length cm) ++ fst (classify MCode r), snd (classify MCode r)).
Proof.
  intros cm r H. destruct H as [b H|b H|b H]; rewrite Forall_forall in H.
  - change ((35%N :: b ++ [10%N]) ++ r) with (35%N :: (b ++ [10%N]) ++ r). rewrite <- app_assoc.
    cbn [app]. cbn [classify is_quote]. change (is_quote 35) with false. change (35 =? 35)%N with true. cbn iota.
    rewrite classify_line by (intro K; apply H in K; tauto). cbn [fst snd length].
    rewrite app_length. simpl. rewrite Nat.add_1_r. reflexivity.
  - change ((45%N :: 45%N :: b ++ [10%N]) ++ r) with (45%N :: 45%N :: (b ++ [10%N]) ++ r). rewrite <- app_assoc.
    cbn [app]. 
    change (classify MCode (45%N :: 45%N :: b ++ 10%N :: r)) with
      (Comment :: Comment :: fst (classify MLine (b ++ 10%N :: r)), snd (classify MLine (b ++ 10%N :: r))).
    rewrite classify_line by (intro K; apply H in K; tauto). cbn [fst snd length].
    rewrite app_length. simpl. rewrite Nat.add_1_r. reflexivity.
  - change ((47%N :: 42%N :: b ++ [42%N; 47%N]) ++ r) with (47%N :: 42%N :: (b ++ [42%N; 47%N]) ++ r). rewrite <- app_assoc.
    cbn [app]. 
    change (classify MCode (47%N :: 42%N :: b ++ 42%N :: 47%N :: r)) with
      (Comment :: Comment :: fst (classify (MBlock false) (b ++ 42%N :: 47%N :: r)), snd (classify (MBlock false) (b ++ 42%N :: 47%N :: r))).
    rewrite classify_block; [|intro K; apply H in K; tauto|intro K; apply H in K; tauto]. cbn [fst snd length].
    rewrite app_length. simpl. reflexivity.
Qed.

Lemma skipn_nth : forall (s : text) i a b c, firstn 3 (skipn i s) = [a; b; c] ->
  nth_error s i = Some a /\ nth_error s (S i) = Some b /\ nth_error s (S (S i)) = Some c.
Proof.
  induction s as [|x s IH]; intros i a b c H.
  - destruct i; discriminate.
  - destruct i as [|i].
    + destruct s as [|y [|z s]]; simpl in H; inversion H; subst; auto.
    + simpl in H. apply IH in H. exact H.
Qed.

Lemma comment_plain : forall cm r k, good_comment cm -> ~ In Comment k -> hd_error r <> Some 42%N ->
  comments_plain_in (cm ++ r) (repeat Comment (length cm) ++ k).
Proof.
  intros cm r k HG Hk Hr i Hi.
  assert (Hlt : i < length cm).
  { destruct (Nat.lt_ge_cases i (length cm)); auto. exfalso.
    rewrite nth_error_app2 in Hi by (rewrite repeat_length; auto).
    apply nth_error_In in Hi. contradiction. }
  assert (HC : forall j, j < length cm -> nth_error (cm ++ r) j = nth_error cm j) by (intros; apply nth_error_app1; auto).
  rewrite !HC by auto.
  assert (Q : forall c, nth_error cm i = Some c -> c <> 39%N /\ c <> 34%N).
  { intros c E. apply nth_error_In in E. destruct HG as [b H|b H|b H]; rewrite Forall_forall in H;
    repeat (destruct E as [E|E]; [subst; split; discriminate|]);
    apply in_app_or in E as [E|E];
    try (apply H in E; tauto); repeat (destruct E as [E|E]; [subst; split; discriminate|]); destruct E. }
  split; [intro E; apply Q in E; tauto|]. split; [intro E; apply Q in E; tauto|].
  intro Hi1.
  assert (Hlt1 : S i < length cm).
  { destruct (Nat.lt_ge_cases (S i) (length cm)); auto. exfalso.
    rewrite nth_error_app2 in Hi1 by (rewrite repeat_length; auto).
    apply nth_error_In in Hi1. contradiction. }
  (* a '*' inside a good comment only at the block delimiters *)
  destruct HG as [b H|b H|b H].
  - assert (NS : ~ In 42%N (35%N :: b ++ [10%N])).
    { rewrite Forall_forall in H. intros [K|K]; [discriminate|]. apply in_app_or in K as [K|[K|[]]]; [apply H in K; tauto|discriminate]. }
    split; intro E; apply skipn_nth in E as (E1 & E2 & E3); rewrite HC in E1, E2 by auto;
    apply NS; eapply nth_error_In; eauto.
  - assert (NS : ~ In 42%N (45%N :: 45%N :: b ++ [10%N])).
    { rewrite Forall_forall in H. intros [K|[K|K]]; [discriminate|discriminate|]. apply in_app_or in K as [K|[K|[]]]; [apply H in K; tauto|discriminate]. }
    split; intro E; apply skipn_nth in E as (E1 & E2 & E3); rewrite HC in E1, E2 by auto;
    apply NS; eapply nth_error_In; eauto.
  - rewrite Forall_forall in H.
    assert (NB : forall c, In c b -> c <> 42%N /\ c <> 47%N) by (intros c K; apply H in K; tauto).
    assert (HS : forall j, nth_error ((47%N :: 42%N :: b ++ [42%N; 47%N]) ++ r) (S (S j)) = nth_error (b ++ 42%N :: 47%N :: r) j).
    { intro j. simpl. rewrite <- app_assoc. reflexivity. }
    assert (HB : forall j c, nth_error (b ++ 42%N :: 47%N :: r) j = Some c -> j < length b -> c <> 42%N /\ c <> 47%N).
    { intros j c E L. rewrite nth_error_app1 in E by auto. apply NB. eapply nth_error_In; eauto. }
    assert (H0 : nth_error (b ++ 42%N :: 47%N :: r) (length b) = Some 42%N) by (apply nth_mid).
    assert (H1 : nth_error (b ++ 42%N :: 47%N :: r) (S (length b)) = Some 47%N).
    { rewrite nth_error_app2 by lia. replace (S (length b) - length b) with 1 by lia. reflexivity. }
    assert (H2 : nth_error (b ++ 42%N :: 47%N :: r) (S (S (length b))) = hd_error r).
    { rewrite nth_error_app2 by lia. replace (S (S (length b)) - length b) with 2 by lia. simpl. destruct r; reflexivity. }
    cbn [length] in Hlt, Hlt1. rewrite app_length in Hlt, Hlt1. cbn [length] in Hlt, Hlt1.
    split; intro E; apply skipn_nth in E as (E1 & E2 & E3).
    + destruct i as [|[|i]].
      * rewrite HS in E3. destruct b as [|c b]; simpl in E3; [discriminate|].
        inversion E3; subst. destruct (NB 47%N); [left; auto|congruence].
      * simpl in E1. discriminate.
      * rewrite HS in E1, E2. 
        destruct (Nat.lt_trichotomy i (length b)) as [L|[->|L]].
        -- apply HB in E1; auto. destruct E1; congruence.
        -- congruence.
        -- lia.
    + destruct i as [|[|i]].
      * simpl in E1. discriminate.
      * rewrite HS in E2, E3. destruct b as [|c b].
        -- simpl in E2. discriminate.
        -- simpl in E2. inversion E2; subst. destruct (NB 47%N); [left; auto|congruence].
      * rewrite HS in E1, E2, E3.
        destruct (Nat.lt_trichotomy i (length b)) as [L|[->|L]].
        -- apply HB in E1; auto. destruct E1; congruence.
        -- rewrite H2 in E3. contradiction.
        -- assert (i = S (length b)) by lia. subst. congruence.
Qed.

Lemma plain_prefix : forall a s ka k, length a = length ka -> ~ In Comment ka ->
  comments_plain_in s k -> comments_plain_in (a ++ s) (ka ++ k).
Proof.
  induction a as [|x a IH]; intros s ka k HL Hk H; destruct ka as [|k0 ka]; simpl in HL; try discriminate; auto.
  intros [|i] Hi; simpl in Hi.
  - inversion Hi; subst. exfalso; apply Hk; left; auto.
  - exact (IH s ka k ltac:(congruence) (fun K => Hk (or_intror K)) H i Hi).
Qed.

Lemma ended_classify : forall l r, Forall (plain_stmt al) l ->
  exists k, length k = length (ended l) /\ ~ In Comment k /\
    classify MCode (ended l ++ r) = (k ++ fst (classify MCode r), snd (classify MCode r)).
Proof.
  induction l as [|s l IH]; intros r H.
  - exists []. repeat split; auto. simpl. destruct (classify MCode r); reflexivity.
  - inversion H as [|? ? Hs Hl]; subst. destruct (IH r Hl) as (k & A & B & C).
    destruct Hs as [_ [D [_ E]]]. unfold closed, classes in *.
    exists (fst (classify MCode s) ++ Sep :: k). split; [|split].
    + simpl. rewrite !app_length, classify_length. simpl. congruence.
    + intro K. apply in_app_or in K as [K|[K|K]]; [auto|discriminate|auto].
    + simpl. rewrite <- app_assoc. cbn [app]. rewrite classify_sep; auto; [|exact I].
      rewrite C. cbn [fst snd]. rewrite <- app_assoc. reflexivity.
Qed.

Lemma texts_ended : forall l L r, Forall (plain_stmt al) l ->
  texts_from L (ended l ++ r) = with_lines L l ++ texts_from (L + count_nl (ended l)) r.
Proof.
  induction l as [|s l IH]; intros L r H.
  - simpl. unfold count_nl. simpl. f_equal. lia.
  - inversion H as [|? ? Hs Hl]; subst. simpl. rewrite <- app_assoc. cbn [app].
    rewrite texts_from_sep by auto. rewrite IH by auto. cbn [app]. do 3 f_equal.
    rewrite count_nl_app. change (59%N :: ended l) with ([59%N] ++ ended l). rewrite count_nl_app. 
    change (count_nl [59%N]) with 0. lia.
Qed.

Lemma texts_comment : forall cm r L, good_comment cm ->
  texts_from L (cm ++ r) = texts_from (L + count_nl cm) r.
Proof.
  intros cm r L H. unfold texts_from, classes. rewrite classify_comment by auto. cbn [fst].
  rewrite combine_chunk. set (x := combine (fst (classify MCode r)) _).
  rewrite groups_sepfree by (apply chunk_sepfree; discriminate).
  assert (groups x <> []).
  { clear. destruct x as [|[[] ?] x]; simpl; try discriminate; destruct (groups x); discriminate. }
  destruct (groups x) as [|h tl]; [congruence|].
  cbn [flat_map]. f_equal. unfold stmt_of.
  rewrite drop_until_app, drop_chunk by discriminate. reflexivity.
Qed.

Lemma map_fst_lines : forall l L, map fst (with_lines L l) = l.
Proof. induction l; intro L; simpl; f_equal; auto. Qed.

(** A comment put between complete statements changes nothing. *)
Lemma comment_between : forall l1 cm l2, Forall (plain_stmt al) l1 -> good_comment cm -> Forall (plain_stmt al) l2 ->
  exists s segs, split al (ended l1 ++ cm ++ join_semi l2) = Done s segs /\ map fst segs = l1 ++ l2.
Proof.
  intros l1 cm l2 H1 Hc H2.
  destruct (ended_classify l1 (cm ++ join_semi l2) H1) as (k & A & B & C).
  destruct (join_classes l2 H2) as [J1 J2].
  assert (Hst : hd_error (join_semi l2) <> Some 42%N).
  { destruct l2 as [|[|c s] l2]; [discriminate| |].
    - inversion H2 as [|? ? K KK]; destruct K as [K _]; contradiction.
    - inversion H2 as [|? ? K KK]; subst. destruct K as [[K _] _]. intro E.
      destruct l2; simpl in E; inversion E; subst; congruence. }
  assert (P : comments_plain (ended l1 ++ cm ++ join_semi l2)).
  { unfold comments_plain, classes. rewrite C. cbn [fst]. apply plain_prefix; auto.
    rewrite classify_comment by auto. cbn [fst]. apply comment_plain; auto. }
  assert (S := split_correct al al_slash _ P).
  assert (CL : closed (ended l1 ++ cm ++ join_semi l2) = true).
  { unfold closed. rewrite C. cbn [snd]. rewrite classify_comment by auto. cbn [snd]. exact J1. }
  rewrite CL in S. destruct S as [s S]. exists s. eexists. split; [exact S|].
  change (statements al (ended l1 ++ cm ++ join_semi l2)) with (texts_from 1 (ended l1 ++ cm ++ join_semi l2)).
  rewrite texts_ended, texts_comment, texts_join by auto. rewrite map_app, !map_fst_lines. reflexivity.
Qed.
End Cor.

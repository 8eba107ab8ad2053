(** Lemmas about the recognition and replacement of raw SQL blocks. *)
From Verif Require Import Base PyVal Str_Model Str_Proofs Interp_Props Utils_Proofs Stmt_Spec Raw_Spec Raw_Model.
Local Open Scope nat_scope.

(** Which characters are white space and word characters, as far as it matters. *)
Definition sane_chars (sp word : N -> bool) : Prop :=
  (forall c, In c (t "/*().ndraw") -> sp c = false) /\ sp 101%N = false /\ (forall c, word c = true -> sp c = false /\ ~ In c (t "/*().")).

Section Raw.
Variables sp word : N -> bool.
Hypothesis sane : sane_chars sp word.
Notation blanks := (blanks sp). Notation quiet := (quiet sp).

Lemma sp_no : forall c, In c (t "/*().ndraw") -> sp c = false.
Proof. exact (proj1 sane). Qed.
Lemma sp_e : sp 101%N = false.
Proof. exact (proj1 (proj2 sane)). Qed.
Lemma word_no : forall c, word c = true -> sp c = false /\ ~ In c (t "/*().").
Proof. exact (proj2 (proj2 sane)). Qed.
Ltac inc := cbn [t In]; repeat (first [left; reflexivity|right]).
Ltac in_t := match goal with |- In ?c (t ?s) => let x := eval vm_compute in (t s) in change (In c x); cbn [In]; tauto end.
Lemma sp_no' : sp 47%N = false /\ sp 42%N = false /\ sp 40%N = false /\ sp 41%N = false /\ sp 46%N = false /\ sp 114%N = false /\ sp 97%N = false /\ sp 119%N = false /\ sp 110%N = false /\ sp 100%N = false.
Proof. repeat split; apply sp_no; in_t. Qed.

(** ** Skipping white space *)
Lemma skip_blanks : forall w s, blanks w -> lstrip sp (w ++ s) = lstrip sp s.
Proof. induction w as [|c w IH]; intros s B; [reflexivity|]. inversion B as [|x y Hc B']; subst. cbn [app lstrip]. rewrite Hc. apply IH, B'. Qed.
Lemma skip_stop : forall c s, sp c = false -> lstrip sp (c :: s) = c :: s.
Proof. intros c s H. cbn [lstrip]. rewrite H. reflexivity. Qed.
Lemma skip_t : forall s, lstrip sp (t "endraw" ++ s) = t "endraw" ++ s /\ lstrip sp (t "*/" ++ s) = t "*/" ++ s /\ lstrip sp (t "/*" ++ s) = t "/*" ++ s /\
  lstrip sp (t ")" ++ s) = t ")" ++ s /\ lstrip sp (t "(" ++ s) = t "(" ++ s /\ lstrip sp (t "raw(" ++ s) = t "raw(" ++ s.
Proof. intro s. repeat split; apply skip_stop; first [exact sp_e|apply sp_no']. Qed.
Lemma skip_endraw : forall s, lstrip sp (t "endraw" ++ s) = t "endraw" ++ s. Proof. intro s. apply (skip_t s). Qed.
Lemma skip_close : forall s, lstrip sp (t "*/" ++ s) = t "*/" ++ s. Proof. intro s. apply (skip_t s). Qed.
Lemma skip_open : forall s, lstrip sp (t "/*" ++ s) = t "/*" ++ s. Proof. intro s. apply (skip_t s). Qed.
Lemma skip_rparen : forall s, lstrip sp (t ")" ++ s) = t ")" ++ s. Proof. intro s. apply (skip_t s). Qed.
Lemma skip_lparen : forall s, lstrip sp (t "(" ++ s) = t "(" ++ s. Proof. intro s. apply (skip_t s). Qed.
Lemma skip_raw : forall s, lstrip sp (t "raw(" ++ s) = t "raw(" ++ s. Proof. intro s. apply (skip_t s). Qed.
Lemma skip_inv : forall s, exists w, s = w ++ lstrip sp s /\ blanks w.
Proof.
  induction s as [|c s (w & E & B)]; [exists []; split; [reflexivity|constructor]|]. cbn [lstrip]. destruct (sp c) eqn:Hc; [|exists []; split; [reflexivity|constructor]].
  exists (c :: w). split; [cbn [app]; rewrite <- E; reflexivity|constructor; assumption].
Qed.
Lemma after_app : forall p s, after p (p ++ s) = Some s.
Proof.
  intros p s. unfold after. rewrite (proj2 (prefixb_spec p (p ++ s))) by (exists s; reflexivity). rewrite skipn_app, skipn_all, Nat.sub_diag. reflexivity.
Qed.
Lemma after_inv : forall p s r, after p s = Some r -> s = p ++ r.
Proof.
  intros p s r. unfold after. destruct (prefixb p s) eqn:E; [|discriminate]. apply prefixb_spec in E. destruct E as (x & ->). intro H.
  rewrite skipn_app, skipn_all, Nat.sub_diag in H. cbn [app skipn] in H. congruence.
Qed.
Lemma after_other : forall c p d s, c <> d -> after (c :: p) (d :: s) = None.
Proof. intros c p d s N. unfold after. cbn [prefixb]. rewrite (proj2 (N.eqb_neq c d) N). reflexivity. Qed.
Lemma blanks_in : forall w c, blanks w -> In c w -> sp c = true.
Proof. intros w c B I. unfold Raw_Spec.blanks in B. rewrite Forall_forall in B. apply B, I. Qed.

(** ** The end of a block *)
Lemma end_comment : forall w1 w2 s, blanks w1 -> blanks w2 -> raw_end sp (w1 ++ t "endraw" ++ w2 ++ t "*/" ++ s) = Some s.
Proof.
  intros w1 w2 s B1 B2. unfold raw_end. cbv zeta. rewrite skip_blanks by exact B1. rewrite skip_endraw.
  change (after (t ")") (t "endraw" ++ w2 ++ t "*/" ++ s)) with (@None text). cbn iota. rewrite after_app, skip_blanks by exact B2. rewrite skip_close. apply after_app.
Qed.
Lemma end_parens : forall w1 w2 w3 w4 s, blanks w1 -> blanks w2 -> blanks w3 -> blanks w4 ->
  raw_end sp (w1 ++ t ")" ++ w2 ++ t "/*" ++ w3 ++ t "endraw" ++ w4 ++ t "*/" ++ s) = Some s.
Proof.
  intros w1 w2 w3 w4 s B1 B2 B3 B4. unfold raw_end. cbv zeta. rewrite skip_blanks by exact B1. rewrite skip_rparen, after_app, skip_blanks by exact B2.
  rewrite skip_open, after_app, skip_blanks by exact B3. rewrite skip_endraw, after_app, skip_blanks by exact B4. rewrite skip_close. apply after_app.
Qed.
Lemma end_inv : forall s r, raw_end sp s = Some r ->
  exists w g x, s = w ++ g ++ t "endraw" ++ x /\ blanks w /\ (g = [] \/ exists w' w'', g = t ")" ++ w' ++ t "/*" ++ w'' /\ blanks w' /\ blanks w'').
Proof.
  intros s r E. unfold raw_end in E. cbv zeta in E. destruct (skip_inv s) as (w & Es & B). exists w.
  assert (G : forall y, after (t "endraw") y <> None -> exists x, y = t "endraw" ++ x).
  { intros y H. destruct (after (t "endraw") y) as [x|] eqn:Ex; [|congruence]. exists x. apply after_inv, Ex. }
  destruct (after (t ")") (lstrip sp s)) as [r1|] eqn:E1.
  - apply after_inv in E1. destruct (after (t "/*") (lstrip sp r1)) as [r2|] eqn:E2.
    + apply after_inv in E2. destruct (G (lstrip sp r2)) as (x & Ex); [intro N; rewrite N in E; discriminate|].
      destruct (skip_inv r1) as (w1 & Er1 & B1). destruct (skip_inv r2) as (w2 & Er2 & B2). exists (t ")" ++ w1 ++ t "/*" ++ w2), x. split.
      * rewrite Es, E1. f_equal. rewrite Er1, E2. rewrite <- !app_assoc. do 2 f_equal. rewrite Er2, Ex at 1. reflexivity.
      * split; [exact B|]. right. exists w1, w2. auto.
    + rewrite E1 in E. cbn in E. discriminate.
  - destruct (G (lstrip sp s)) as (x & Ex); [intro N; rewrite N in E; discriminate|]. exists [], x. split; [rewrite Es, Ex at 1; reflexivity|]. split; [exact B|left; reflexivity].
Qed.

(** ** Inside the SQL no end is found *)
Lemma app_cases : forall (a b c d : text), a ++ b = c ++ d -> (exists x, c = a ++ x /\ b = x ++ d) \/ (exists x, x <> [] /\ a = c ++ x /\ x ++ b = d).
Proof.
  induction a as [|z a IH]; intros b c d E; [left; exists c; auto|]. destruct c as [|y c].
  - right. exists (z :: a). repeat split; auto. discriminate.
  - cbn [app] in E. injection E as -> E. destruct (IH b c d E) as [(x & -> & ->)|(x & N & -> & <-)]; [left; exists x|right; exists x]; auto.
Qed.
(** Some text that begins, after white space, with [c]. *)
Definition first_is (c : N) (s : text) : Prop := exists w r, s = w ++ c :: r /\ blanks w.
Lemma first_not : forall c d s w r, first_is c s -> c <> d -> sp d = false -> sp c = false -> blanks w -> s = w ++ d :: r -> False.
Proof.
  intros c d s w r (w0 & r0 & -> & B0) N Hd Hc B E.
  assert (X : lstrip sp (w0 ++ c :: r0) = lstrip sp (w ++ d :: r)) by (rewrite E; reflexivity).
  rewrite !skip_blanks, !skip_stop in X by assumption. injection X as X _. contradiction.
Qed.
(** [u] a part at the end of the SQL, ending in something other than white space. *)
Definition ends_dark (u : text) : Prop := forall c r, u = r ++ [c] -> sp c = false.
Lemma dark_not_blank : forall u, u <> [] -> ends_dark u -> ~ blanks u.
Proof.
  intros u N D B. destruct (@exists_last _ u N) as (r & c & E). pose proof (D c r E) as H. assert (sp c = true); [|congruence]. apply (blanks_in u); [exact B|]. rewrite E. apply in_or_app. right. left. reflexivity.
Qed.
Lemma dark_suffix : forall a u, ends_dark (a ++ u) -> u <> [] -> ends_dark u.
Proof. intros a u D _ c r E. apply (D c (a ++ r)). rewrite E, app_assoc. reflexivity. Qed.
Lemma dark_skip : forall u x w d, u <> [] -> ends_dark u -> blanks w -> u ++ x = w ++ d -> exists u', u' <> [] /\ u = w ++ u' /\ u' ++ x = d.
Proof.
  intros u x w d N D B E. destruct (app_cases _ _ _ _ E) as [(y & Ew & Ex)|(y & Ny & Eu & Ed)]; [|eauto].
  exfalso. apply (dark_not_blank u N D). unfold Raw_Spec.blanks in *. rewrite Ew in B. apply Forall_app in B. apply B.
Qed.
Lemma no_endraw : forall u x c r, u <> [] -> (forall a b, u <> a ++ t "endraw" ++ b) -> first_is c x -> c = 41%N \/ c = 101%N -> u ++ x = t "endraw" ++ r -> False.
Proof.
  intros u x c r N NE F Hc E. destruct (app_cases _ _ _ _ E) as [(y & Ee & Ex)|(y & Ny & Eu & Ed)].
  - assert (Hsp : sp c = false) by (destruct Hc as [->| ->]; [apply sp_no'|exact sp_e]).
    assert (Y : y = [] \/ exists z y', y = z :: y' /\ In z (t "ndraw")).
    { destruct u as [|u0 u]; [contradiction|]. destruct y as [|z y']; [left; reflexivity|right]. exists z, y'. split; [reflexivity|].
      assert (I : In z (t "ndraw")); [|exact I]. assert (Ee' : t "ndraw" = u ++ z :: y') by (apply (f_equal (@tl _)) in Ee; exact Ee). rewrite Ee'.
      apply in_or_app. right. left. reflexivity. }
    destruct Y as [->|(z & y' & -> & Iz)].
    + rewrite app_nil_r in Ee. apply (NE [] []). rewrite app_nil_r. symmetry. exact Ee.
    + assert (Hz : sp z = false) by (apply sp_no; revert Iz; cbn [t In]; intro; apply (in_or_app (t "/*().") (t "ndraw")); right; assumption).
      apply (first_not c z x [] (y' ++ r) F); auto; [|constructor]. intros ->. destruct Hc as [->| ->]; revert Iz; vm_compute; intuition discriminate.
  - apply (NE [] y). exact Eu.
Qed.
Lemma end_later : forall u x c, u <> [] -> ends_dark u -> (forall a b, u <> a ++ t "endraw" ++ b) -> first_is c x ->
  (c = 41%N \/ c = 101%N /\ forall w r, blanks w -> u <> r ++ t ")" ++ w ++ t "/*") -> raw_end sp (u ++ x) = None.
Proof.
  intros u x c N D NE F Hc. destruct (raw_end sp (u ++ x)) as [r|] eqn:E; [exfalso|reflexivity].
  apply end_inv in E. destruct E as (w & g & y & E & B & G). destruct (dark_skip _ _ _ _ N D B E) as (u1 & N1 & Eu & E1).
  assert (Hc' : c = 41%N \/ c = 101%N) by intuition.
  assert (Hsp : sp c = false) by (destruct Hc' as [->| ->]; [apply sp_no'|exact sp_e]).
  assert (NE1 : forall a b, u1 <> a ++ t "endraw" ++ b) by (intros a b ->; apply (NE (w ++ a) b); rewrite Eu, <- app_assoc; reflexivity).
  assert (D1 : ends_dark u1) by (rewrite Eu in D; exact (dark_suffix w u1 D N1)).
  destruct G as [->|(w' & w'' & -> & B' & B'')].
  - apply (no_endraw u1 x c y N1 NE1 F Hc' E1).
  - rewrite <- !app_assoc in E1. destruct u1 as [|z u2]; [contradiction|]. cbn [t app] in E1. change (41%N :: w' ++ t "/*" ++ w'' ++ t "endraw" ++ y) with (41%N :: w' ++ t "/*" ++ w'' ++ t "endraw" ++ y) in E1.
    assert (z = 41%N) as -> by (cbn in E1; congruence). assert (E2 : u2 ++ x = w' ++ t "/*" ++ w'' ++ t "endraw" ++ y) by (cbn in E1 |- *; congruence).
    destruct u2 as [|z2 u2'].
    + cbn [app] in E2. apply (first_not c 47%N x w' (42%N :: w'' ++ t "endraw" ++ y) F); auto; [destruct Hc' as [->| ->]; discriminate|apply sp_no'].
    + assert (D2 : ends_dark (z2 :: u2')) by (apply (dark_suffix [41%N]); [exact D1|discriminate]).
      destruct (dark_skip (z2 :: u2') x w' _ ltac:(discriminate) D2 B' E2) as (u3 & N3 & Eu2 & E3).
      destruct u3 as [|a u3]; [contradiction|]. assert (a = 47%N) as -> by (cbn in E3; congruence). assert (E4 : u3 ++ x = 42%N :: w'' ++ t "endraw" ++ y) by (cbn in E3 |- *; congruence).
      destruct u3 as [|b u4].
      * cbn [app] in E4. apply (first_not c 42%N x [] (w'' ++ t "endraw" ++ y) F); auto; [destruct Hc' as [->| ->]; discriminate|apply sp_no'|constructor].
      * assert (b = 42%N) as -> by (cbn in E4; congruence). assert (E5 : u4 ++ x = w'' ++ t "endraw" ++ y) by (cbn in E4 |- *; congruence).
        destruct u4 as [|d u5].
        -- destruct Hc as [->|[-> Ne]].
           ++ cbn [app] in E5. apply (first_not 41%N 101%N x w'' (t "ndraw" ++ y) F); auto; [discriminate|exact sp_e].
           ++ apply (Ne w' w B'). rewrite Eu, Eu2. reflexivity.
        -- assert (D4 : ends_dark (d :: u5)).
           { rewrite Eu2 in D2. apply dark_suffix in D2; [|discriminate]. change (47%N :: 42%N :: d :: u5) with ([47%N; 42%N] ++ d :: u5) in D2. apply dark_suffix in D2; [exact D2|discriminate]. }
           destruct (dark_skip (d :: u5) x w'' _ ltac:(discriminate) D4 B'' E5) as (u6 & N6 & Eu6 & E6).
           apply (no_endraw u6 x c y N6); auto. intros p q ->. apply (NE1 ([41%N] ++ w' ++ [47%N; 42%N] ++ w'' ++ p) q).
           rewrite Eu2, Eu6. rewrite <- !app_assoc. reflexivity.
Qed.
Lemma body_found : forall q x y c, raw_end sp x = Some y -> ends_dark q -> (forall a b, q <> a ++ t "endraw" ++ b) -> first_is c x ->
  (c = 41%N \/ c = 101%N /\ forall w r, blanks w -> q <> r ++ t ")" ++ w ++ t "/*") -> raw_body sp (q ++ x) = Some (q, y).
Proof.
  induction q as [|z q IH]; intros x y c E D NE F Hc.
  - cbn [app]. destruct x as [|z x]; cbn [raw_body]; rewrite E; reflexivity.
  - cbn [app raw_body]. change (z :: q ++ x) with ((z :: q) ++ x). rewrite (end_later (z :: q) x c); auto; [|discriminate]. cbn [app].
    rewrite (IH x y c); auto.
    + destruct q as [|z' q]; [intros a r X; destruct r; discriminate|]. apply (dark_suffix [z]); [exact D|discriminate].
    + intros a b X. apply (NE (z :: a) b). rewrite X. reflexivity.
    + destruct Hc as [Hc|[Hc Ne]]; [left; exact Hc|right]. split; [exact Hc|]. intros w r B X. apply (Ne w (z :: r) B). rewrite X. reflexivity.
Qed.

(** ** A whole block *)
Definition named (d v : text) : text := d ++ t "." ++ v.
Lemma part_chars : forall d v c, part word d -> part word v -> In c (named d v) -> (word c = true \/ c = 46%N).
Proof.
  intros d v c Pd Pv I. unfold named in I. unfold part in *. rewrite Forall_forall in Pd, Pv. apply in_app_or in I. destruct I as [I|I]; [left; apply Pd, I|].
  apply in_app_or in I. destruct I as [[<-|[]]|I]; [right; reflexivity|left; apply Pv, I].
Qed.
Lemma name_run_app : forall n s, (forall c, In c n -> word c = true \/ c = 46%N) -> name_run word (n ++ t ")" ++ s) = (n, t ")" ++ s).
Proof.
  induction n as [|c n IH]; intros s H.
  - cbn [app]. change (t ")" ++ s) with (41%N :: s). cbn [name_run]. destruct (word 41%N) eqn:W; [|reflexivity]. exfalso. apply (word_no 41%N W). in_t.
  - cbn [app name_run]. assert (word c || (c =? 46)%N = true) as -> by (destruct (H c (or_introl eq_refl)) as [->| ->]; [reflexivity|apply orb_true_r]).
    rewrite IH by (intros x I; apply H; right; exact I). reflexivity.
Qed.
Lemma trimmed_skip : forall q s, trimmed sp q -> (q = [] -> lstrip sp s = s) -> lstrip sp (q ++ s) = q ++ s.
Proof. intros [|c q] s [T _] H; [apply H; reflexivity|]. cbn [app]. apply skip_stop. apply (T c q). reflexivity. Qed.
(** Where the SQL is empty white space belongs to the end. *)
Lemma body_skip : forall q w x y c, trimmed sp q -> (forall a b, q <> a ++ t "endraw" ++ b) -> blanks w -> first_is c x -> raw_end sp (w ++ x) = Some y -> raw_end sp (lstrip sp (w ++ x)) = Some y ->
  (c = 41%N \/ c = 101%N /\ forall w r, blanks w -> q <> r ++ t ")" ++ w ++ t "/*") -> raw_body sp (lstrip sp (q ++ w ++ x)) = Some (q, y).
Proof.
  intros q w x y c T NE B F E1 E2 Hc. destruct q as [|z q].
  - cbn [app]. destruct (lstrip sp (w ++ x)) as [|z s]; cbn [raw_body]; rewrite E2; reflexivity.
  - rewrite trimmed_skip; [|exact T|discriminate]. apply (body_found (z :: q) (w ++ x) y c); auto; [exact (proj2 T)|].
    destruct F as (w0 & r & -> & B0). exists (w ++ w0), r. split; [rewrite app_assoc; reflexivity|]. unfold Raw_Spec.blanks in *. apply Forall_app. auto.
Qed.
Lemma end_skip : forall s, raw_end sp (lstrip sp s) = raw_end sp s.
Proof.
  intro s. unfold raw_end. assert (lstrip sp (lstrip sp s) = lstrip sp s) as ->; [|reflexivity].
  induction s as [|c s IH]; [reflexivity|]. cbn [lstrip]. destruct (sp c) eqn:H; [exact IH|]. apply skip_stop, H.
Qed.
Lemma match_block : forall b s, block_ok sp word b -> match_raw sp word (b_text b ++ s) = Some (b_name b, b_sql b, s).
Proof.
  intros b s K. destruct K as [w1 w2 w3 w4 d v q B1 B2 B3 B4 Pd Pv [T [Qu NE]] H1 H2|w1 w2 w3 w4 w5 w6 w7 w8 d v q B1 B2 B3 B4 B5 B6 B7 B8 Pd Pv [T [Qu NE]]];
    cbn [b_text b_sql]; unfold b_name; cbn [b_db b_view]; rewrite <- !app_assoc; unfold match_raw; rewrite after_app, skip_blanks, skip_raw, after_app by exact B1.
  - match goal with |- context [name_run word ?X] => replace X with (named d v ++ t ")" ++ w2 ++ q ++ w3 ++ t "endraw" ++ w4 ++ t "*/" ++ s) by (unfold named; rewrite <- !app_assoc; reflexivity) end.
    rewrite name_run_app by (intros c I; exact (part_chars d v c Pd Pv I)). rewrite after_app.
    assert (Nn : named d v <> []) by (unfold named; destruct d; discriminate). change (d ++ t "." ++ v) with (named d v). destruct (named d v) as [|n0 n]; [contradiction|].
    rewrite skip_blanks by exact B2. cbv zeta.
    assert (F : first_is 101%N (t "endraw" ++ w4 ++ t "*/" ++ s)) by (exists [], (t "ndraw" ++ w4 ++ t "*/" ++ s); split; [reflexivity|constructor]).
    assert (E : raw_end sp (w3 ++ t "endraw" ++ w4 ++ t "*/" ++ s) = Some s) by (apply end_comment; assumption).
    assert (R : raw_body sp (lstrip sp (lstrip sp (q ++ w3 ++ t "endraw" ++ w4 ++ t "*/" ++ s))) = Some (q, s)).
    { assert (X : forall x, lstrip sp (lstrip sp x) = lstrip sp x) by (induction x as [|c x IH]; [reflexivity|]; cbn [lstrip]; destruct (sp c) eqn:Hs; [exact IH|apply skip_stop, Hs]).
      rewrite X. apply (body_skip q w3 _ s 101%N); auto. rewrite end_skip. exact E. }
    destruct (after (t "*/") (lstrip sp (q ++ w3 ++ t "endraw" ++ w4 ++ t "*/" ++ s))) as [r|] eqn:Ea; [|rewrite R; reflexivity].
    destruct (after (t "(") (lstrip sp r)) as [r'|] eqn:Eb; [|rewrite R; reflexivity]. exfalso. apply after_inv in Ea, Eb. destruct (skip_inv r) as (w & Er & Bw). rewrite Er, Eb in Ea.
    destruct q as [|z q].
    + cbn [app] in Ea. rewrite skip_blanks, skip_endraw in Ea by exact B3. discriminate.
    + rewrite trimmed_skip in Ea; [|exact T|discriminate].
      destruct (app_cases _ _ _ _ Ea) as [(y & Ec & Ed)|(y & Ny & Ec & Ed)].
      * assert (In 101%N (y ++ w ++ t "(" ++ r')) as I by (rewrite <- Ed; apply in_or_app; right; left; reflexivity).
        destruct q as [|z2 q]; [cbn in Ec|].
        -- assert (y = [47%N]) as -> by congruence. cbn [app] in Ed. apply (first_not 101%N 47%N (w3 ++ t "endraw" ++ w4 ++ t "*/" ++ s) [] (w ++ t "(" ++ r')); auto; [|discriminate|apply sp_no'|exact sp_e|constructor].
           exists w3, (t "ndraw" ++ w4 ++ t "*/" ++ s). split; [reflexivity|exact B3].
        -- cbn in Ec. assert (q = [] /\ y = []) as [-> ->] by (destruct q; [destruct y; [auto|discriminate]|discriminate]). cbn [app] in Ed.
           apply (first_not 101%N 40%N (w3 ++ t "endraw" ++ w4 ++ t "*/" ++ s) w r'); auto; [|discriminate|apply sp_no'|exact sp_e].
           exists w3, (t "ndraw" ++ w4 ++ t "*/" ++ s). split; [reflexivity|exact B3].
      * destruct (app_cases _ _ _ _ Ed) as [(y2 & Ee & Ef)|(y2 & Ny2 & Ee & Ef)].
        -- apply (first_not 101%N 40%N (w3 ++ t "endraw" ++ w4 ++ t "*/" ++ s) y2 r'); auto; [|discriminate|apply sp_no'|exact sp_e|].
           ++ exists w3, (t "ndraw" ++ w4 ++ t "*/" ++ s). split; [reflexivity|exact B3].
           ++ unfold Raw_Spec.blanks in *. rewrite Ee in Bw. apply Forall_app in Bw. apply Bw.
        -- destruct y2 as [|z2 y2]; [contradiction|]. assert (z2 = 40%N) as -> by (cbn in Ef; congruence).
           apply (H1 w y2 Bw). rewrite Ec, Ee. reflexivity.
  - match goal with |- context [name_run word ?X] => replace X with (named d v ++ t ")" ++ w2 ++ t "*/" ++ w3 ++ t "(" ++ w4 ++ q ++ w5 ++ t ")" ++ w6 ++ t "/*" ++ w7 ++ t "endraw" ++ w8 ++ t "*/" ++ s) by (unfold named; rewrite <- !app_assoc; reflexivity) end.
    rewrite name_run_app by (intros c I; exact (part_chars d v c Pd Pv I)). rewrite after_app.
    assert (Nn : named d v <> []) by (unfold named; destruct d; discriminate). change (d ++ t "." ++ v) with (named d v). destruct (named d v) as [|n0 n]; [contradiction|].
    rewrite skip_blanks by exact B2. cbv zeta. rewrite skip_close, after_app, skip_blanks, skip_lparen, after_app by exact B3.
    rewrite skip_blanks by exact B4. rewrite (body_skip q w5 _ s 41%N); auto.
    + exists [], (w6 ++ t "/*" ++ w7 ++ t "endraw" ++ w8 ++ t "*/" ++ s). split; [reflexivity|constructor].
    + apply end_parens; assumption.
    + rewrite end_skip. apply end_parens; assumption.
Qed.

(** ** Where blocks begin *)
Definition star (s : text) : Prop := exists w r, blanks w /\ s = 42%N :: w ++ t "raw(" ++ r.
(** Nowhere in [x], when [s] follows. *)
Definition no_star (x s : text) : Prop := forall a u, x = a ++ u -> u <> [] -> ~ star (u ++ s).
(** What follows does not complete the beginning of a block. *)
Definition safe (s : text) : Prop := forall w p q r, blanks w -> t "raw(" = p ++ q -> q <> [] -> s <> w ++ q ++ r.
Lemma no_star_app : forall x y s, no_star x (y ++ s) -> no_star y s -> no_star (x ++ y) s.
Proof.
  intros x y s Hx Hy a u E Nu. destruct (app_cases _ _ _ _ E) as [(z & -> & ->)|(z & Nz & -> & <-)].
  - apply (Hy z u eq_refl Nu).
  - rewrite <- app_assoc. apply (Hx a z eq_refl Nz).
Qed.
Lemma no_star_none : forall x s, ~ In 42%N x -> no_star x s.
Proof. intros x s N a u -> Nu (w & r & _ & E). destruct u as [|c u]; [contradiction|]. cbn [app] in E. injection E as -> _. apply N. apply in_or_app. right. left. reflexivity. Qed.
Lemma no_star_quiet : forall x s, quiet x -> safe s -> no_star x s.
Proof.
  intros x s Qx Sf a u -> Nu (w & r & B & E). destruct u as [|c u]; [contradiction|]. cbn [app] in E. assert (c = 42%N) as -> by congruence. assert (E1 : u ++ s = w ++ t "raw(" ++ r) by (cbn in E |- *; congruence).
  destruct (app_cases _ _ _ _ E1) as [(y & Ew & Es)|(y & Ny & Eu & Ey)].
  - apply (Sf y [] (t "raw(") r); auto; [|discriminate]. unfold Raw_Spec.blanks in *. rewrite Ew in B. apply Forall_app in B. apply B.
  - destruct (app_cases _ _ _ _ Ey) as [(z & Ez & Es)|(z & Nz & Ez & Es)].
    + destruct z as [|z0 z].
      * rewrite app_nil_r in Ez. apply (Qx a w [] B). rewrite Eu, <- Ez, app_nil_r. reflexivity.
      * apply (Sf [] y (z0 :: z) r); auto; [constructor|discriminate].
    + apply (Qx a w z B). rewrite Eu, Ez. reflexivity.
Qed.
Lemma raw_suffix_chars : forall p q c r, t "raw(" = p ++ q -> q = c :: r -> In c (t "raw(").
Proof. intros p q c r E ->. rewrite E. apply in_or_app. right. left. reflexivity. Qed.
Lemma raw_chars_dark : forall c, In c (t "raw(") -> sp c = false.
Proof. intros c I. apply sp_no. revert I. vm_compute. intuition. Qed.
Lemma safe_first : forall c s, first_is c s -> sp c = false -> ~ In c (t "raw(") -> safe s.
Proof.
  intros c s F Hc N w p q r B E Nq Es. destruct q as [|z q]; [contradiction|]. pose proof (raw_suffix_chars p _ z q E eq_refl) as I.
  apply (first_not c z s w (q ++ r) F); auto; [intros ->; contradiction|apply raw_chars_dark, I].
Qed.
Lemma safe_nil : safe [].
Proof. intros w p q r B E Nq Es. destruct w; [destruct q; [contradiction|discriminate]|discriminate]. Qed.
Lemma raw_ends : forall p q, t "raw(" = p ++ q -> q <> [] -> In 40%N q /\ ~ In 46%N q.
Proof.
  intros p q E N. split.
  - destruct (@exists_last _ q N) as (q' & z & ->). apply (f_equal (@rev _)) in E. rewrite !rev_app_distr in E. cbn in E. injection E as <- _. apply in_or_app. right. left. reflexivity.
  - intro I. assert (In 46%N (t "raw(")) as J by (rewrite E; apply in_or_app; right; exact I). revert J. vm_compute. intuition discriminate.
Qed.
Lemma named_safe : forall d v s, part word d -> part word v -> safe (named d v ++ s).
Proof.
  intros d v s Pd Pv w p q r B E Nq Es.
  assert (Hn : forall c, In c (named d v) -> sp c = false /\ c <> 40%N).
  { intros c I. destruct (part_chars d v c Pd Pv I) as [W| ->]; [|split; [apply sp_no'|discriminate]]. destruct (word_no c W) as [H1 H2]. split; [exact H1|]. intros ->. apply H2. in_t. }
  assert (w = []) as ->.
  { destruct w as [|c w]; [reflexivity|]. exfalso. inversion B as [|x y Hc _]; subst. assert (Nn : named d v <> []) by (unfold named; destruct d; discriminate).
    destruct (named d v) as [|n0 n] eqn:En; [contradiction|]. cbn [app] in Es. injection Es as -> _. destruct (Hn c (or_introl eq_refl)). congruence. }
  cbn [app] in Es. destruct (raw_ends p q E Nq) as [I40 N46]. destruct (app_cases _ _ _ _ Es) as [(y & Eq & _)|(y & Ny & En & _)].
  - apply N46. rewrite Eq. apply in_or_app. left. unfold named. apply in_or_app. right. left. reflexivity.
  - destruct (Hn 40%N) as [_ X]; [|congruence]. rewrite En. apply in_or_app. left. exact I40.
Qed.
Lemma blanks_no_star : forall w s, blanks w -> no_star w s.
Proof. intros w s B. apply no_star_none. intro I. apply (blanks_in w) in I; [|exact B]. assert (sp 42%N = false) by apply sp_no'. congruence. Qed.
Lemma name_no_star : forall d v s, part word d -> part word v -> no_star (named d v) s.
Proof. intros d v s Pd Pv. apply no_star_none. intro I. destruct (part_chars d v _ Pd Pv I) as [W|W]; [|discriminate]. apply (word_no _ W). in_t. Qed.
Lemma star_close : forall s, no_star (t "*/") s.
Proof.
  intros s a u E Nu (w & r & B & X). destruct a as [|a0 a].
  - cbn [app] in E. subst u. change (t "*/" ++ s) with (42%N :: 47%N :: s) in X.
    assert (E1 : 47%N :: s = w ++ t "raw(" ++ r) by congruence. apply (first_not 47%N 114%N (47%N :: s) w (t "aw(" ++ r)); auto; [|discriminate|apply sp_no'|apply sp_no'].
    exists [], s. split; [reflexivity|constructor].
  - destruct a as [|a1 a]; [|destruct a; destruct u; try discriminate; contradiction].
    assert (u = [47%N]) as -> by (cbn in E; congruence). discriminate.
Qed.
Lemma star_open : forall c s, first_is c s -> sp c = false -> ~ In c (t "raw(") -> no_star (t "/*") s.
Proof.
  intros c s F Hc N a u E Nu (w & r & B & X). destruct a as [|a0 a].
  - cbn [app] in E. subst u. discriminate.
  - destruct a as [|a1 a]; [|destruct a; destruct u; try discriminate; contradiction].
    assert (u = [42%N]) as -> by (cbn in E; congruence). cbn [app] in X. injection X as X. apply (safe_first c s F Hc N w [] (t "raw(") r); auto. discriminate.
Qed.
(** A block after its first two characters. *)
Lemma block_tail : forall b, block_ok sp word b -> exists r, b_text b = 47%N :: 42%N :: r /\ (exists r', r = r' ++ t "*/") /\ forall s, no_star r s.
Proof.
  intros b K.
  assert (NC : forall x s, forallb (fun c => negb (c =? 42)%N) x = true -> no_star x s).
  { intros x s H. apply no_star_none. intro I. rewrite forallb_forall in H. apply H in I. discriminate. }
  assert (F1 : forall w s, blanks w -> first_is 41%N (w ++ t ")" ++ s)) by (intros w s B; exists w, s; split; [reflexivity|exact B]).
  assert (F2 : forall w s, blanks w -> first_is 101%N (w ++ t "endraw" ++ s)) by (intros w s B; exists w, (t "ndraw" ++ s); split; [reflexivity|exact B]).
  assert (I1 : ~ In 41%N (t "raw(")) by (vm_compute; intuition discriminate). assert (I2 : ~ In 101%N (t "raw(")) by (vm_compute; intuition discriminate).
  assert (S1 : sp 41%N = false) by apply sp_no'. pose proof sp_e as S2.
  destruct K as [w1 w2 w3 w4 d v q B1 B2 B3 B4 Pd Pv [T [Qu NE]] H1 H2|w1 w2 w3 w4 w5 w6 w7 w8 d v q B1 B2 B3 B4 B5 B6 B7 B8 Pd Pv [T [Qu NE]]]; cbn [b_text]; change (d ++ t "." ++ v) with (named d v).
  - eexists. split; [reflexivity|]. split; [eexists; rewrite !app_assoc; reflexivity|]. intro s.
    repeat (match goal with |- no_star (_ ++ _) _ => apply no_star_app end; rewrite <- ?app_assoc); try (apply blanks_no_star; assumption); try (apply name_no_star; assumption); try (apply NC; reflexivity).
    + apply no_star_quiet; [exact Qu|]. apply (safe_first 101%N); auto.
    + apply star_close.
  - eexists. split; [reflexivity|]. split; [eexists; rewrite !app_assoc; reflexivity|]. intro s.
    repeat (match goal with |- no_star (_ ++ _) _ => apply no_star_app end; rewrite <- ?app_assoc); try (apply blanks_no_star; assumption); try (apply name_no_star; assumption); try (apply NC; reflexivity).
    + apply star_close.
    + apply no_star_quiet; [exact Qu|]. apply (safe_first 41%N); auto.
    + apply (star_open 101%N); auto.
    + apply star_close.
Qed.

(** ** Finding and replacing *)
Definition starless (s : text) : Prop := ~ star s.
Lemma match_star : forall s x, match_raw sp word s = Some x -> exists r, s = 47%N :: r /\ star r.
Proof.
  intros s x E. unfold match_raw in E. destruct (after (t "/*") s) as [s1|] eqn:E1; [|discriminate]. apply after_inv in E1.
  destruct (after (t "raw(") (lstrip sp s1)) as [s2|] eqn:E2; [|discriminate]. apply after_inv in E2. destruct (skip_inv s1) as (w & Es & B).
  exists (42%N :: s1). split; [exact E1|]. exists w, s2. split; [exact B|]. rewrite Es, E2 at 1. reflexivity.
Qed.
Lemma no_match_in : forall c x s, no_star (c :: x) s -> starless s -> match_raw sp word (c :: x ++ s) = None.
Proof.
  intros c x s N St. destruct (match_raw sp word (c :: x ++ s)) as [y|] eqn:E; [exfalso|reflexivity]. apply match_star in E. destruct E as (r & E & S). injection E as -> E.
  destruct x as [|c' x].
  - cbn [app] in E. subst r. exact (St S).
  - apply (N [47%N] (c' :: x) eq_refl ltac:(discriminate)). rewrite E. exact S.
Qed.
Lemma find_skip : forall x s f, no_star x s -> starless s -> length x <= f -> find_raws sp word f (x ++ s) = find_raws sp word (f - length x) s.
Proof.
  induction x as [|c x IH]; intros s f N St L; [cbn; rewrite Nat.sub_0_r; reflexivity|]. cbn [length] in *. destruct f as [|f]; [lia|].
  cbn [app]. cbn [find_raws]. rewrite no_match_in by assumption. rewrite IH; [reflexivity| |exact St|lia].
  intros a u E Nu. apply (N (c :: a) u); [rewrite E; reflexivity|exact Nu].
Qed.
Lemma replace_free : forall x s old new, no_star x s -> starless s -> (exists r, old = 47%N :: r /\ star r) -> py_replace (x ++ s) old new = x ++ py_replace s old new.
Proof.
  intros x s old new N St (ro & -> & So). induction x as [|c x IH]; [reflexivity|]. cbn [app].
  rewrite replace_skip; [rewrite IH; [reflexivity|]|discriminate|].
  - intros a u E Nu. apply (N (c :: a) u); [rewrite E; reflexivity|exact Nu].
  - destruct (prefixb _ _) eqn:E; [exfalso|reflexivity]. apply prefixb_spec in E. destruct E as (r & E). cbn [app] in E. injection E as -> E.
    destruct So as (w & r' & B & ->). assert (S : star ((42%N :: w ++ t "raw(" ++ r') ++ r)) by (exists w, (r' ++ r); split; [exact B|cbn [app]; rewrite <- !app_assoc; reflexivity]).
    rewrite <- E in S. destruct x as [|c' x].
    + cbn [app] in S. exact (St S).
    + exact (N [47%N] (c' :: x) eq_refl ltac:(discriminate) S).
Qed.
End Raw.

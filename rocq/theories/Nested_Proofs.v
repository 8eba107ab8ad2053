From Coq Require Import Lia.
From Verif Require Import Base Agg_Model Env_Model Env_Props Json_Proofs Nested_Syntax Nested_Model Nested_Spec.
Set Implicit Arguments.
Open Scope nat_scope.

Lemma find_app : forall A (f : A -> bool) a b, find f (a ++ b) = match find f a with Some x => Some x | None => find f b end.
Proof. induction a as [|x a IH]; intros b; [reflexivity|]. cbn [app find]. destruct (f x); [reflexivity|apply IH]. Qed.

Section Vars.
Variable V : Type.
Variable null : V.
Notation heap := (Env_Model.heap V).
Definition view (h : heap) (s : nat) (x : text) : V := Env_Model.get V h s (64%N :: x) null.
Definition older (h : heap) : Prop := forall i c p, nth_error h i = Some c -> sparent V c = Some p -> p < i.

Lemma search_more : forall (h : heap), older h -> forall i f k, i < f -> search V f h i k = search V (S i) h i k.
Proof.
  intros h Ho. induction i as [i IH] using (well_founded_induction lt_wf). intros f k Hf. destruct f as [|f]; [lia|]. cbn [search]. destruct (nth_error h i) as [c|] eqn:E; [|reflexivity].
  destruct (assoc k (svars V c)); [reflexivity|]. destruct (match k with 64%N :: b => assoc b (svars V c) | _ => None end); [reflexivity|].
  destruct (sparent V c) as [p|] eqn:Ep; [|reflexivity]. assert (Hp := Ho i c p E Ep). rewrite (IH p Hp f k ltac:(lia)), (IH p Hp i k Hp). reflexivity.
Qed.
Lemma search_set_other : forall fuel (h : heap) s k v i k', k' <> k -> (forall b, k' = 64%N :: b -> b <> k) -> search V fuel (set_var V h s k v) i k' = search V fuel h i k'.
Proof.
  induction fuel as [|f IH]; intros h s k v i k' Hk Hb; [reflexivity|]. cbn [search]. rewrite set_var_nth. destruct (nth_error h i) as [c|] eqn:E; [|reflexivity].
  assert (Hother : forall k0, k0 <> k -> assoc k0 (dict_set k v (svars V c)) = assoc k0 (svars V c)).
  { intros k0 H0. rewrite assoc_dict_set. assert (text_eqb k0 k = false) as -> by now apply text_eqb_neq. reflexivity. }
  destruct (Nat.eqb i s); cbn [svars sparent].
  - rewrite (Hother k' Hk). destruct (assoc k' (svars V c)); [reflexivity|].
    assert (Eb : match k' with 64%N :: b => assoc b (dict_set k v (svars V c)) | _ => None end = match k' with 64%N :: b => assoc b (svars V c) | _ => None end).
    { destruct k' as [|ch b]; [reflexivity|]. destruct (N.eq_dec ch 64) as [->|Hn].
      - apply Hother. now apply Hb.
      - destruct ch as [|ch]; [reflexivity|]. do 7 (destruct ch as [ch|ch|]; try reflexivity). congruence. }
    rewrite Eb. destruct (match k' with 64%N :: b => assoc b (svars V c) | _ => None end); [reflexivity|]. destruct (sparent V c); [now apply IH|reflexivity].
  - destruct (assoc k' (svars V c)); [reflexivity|]. destruct (match k' with 64%N :: b => assoc b (svars V c) | _ => None end); [reflexivity|].
    destruct (sparent V c); [now apply IH|reflexivity].
Qed.
Lemma set_var_length : forall (h : heap) s k v, length (set_var V h s k v) = length h.
Proof. induction h as [|c h IH]; intros s k v; [reflexivity|]. destruct s as [|s]; cbn [set_var length]; [reflexivity|]. now rewrite IH. Qed.

(** What a run in scope [s] leaves of the other scopes. *)
Definition kept (s : nat) (h h' : heap) : Prop := length h <= length h' /\ older h' /\ forall i, i < length h -> i <> s -> nth_error h' i = nth_error h i.
Lemma kept_refl : forall s h, older h -> kept s h h. Proof. now repeat split. Qed.
Lemma kept_trans : forall s a b c, kept s a b -> kept s b c -> kept s a c.
Proof. intros s a b c (A1 & A2 & A3) (B1 & B2 & B3). split; [lia|]. split; [exact B2|]. intros i Hi Hs. rewrite B3 by lia. now apply A3. Qed.
Lemma older_set : forall h s k v, older h -> older (set_var V h s k v).
Proof.
  intros h s k v Ho i c p E Ep. rewrite set_var_nth in E. destruct (nth_error h i) as [c0|] eqn:E0; [|discriminate]. destruct (Nat.eqb i s); injection E as <-; exact (Ho i c0 p E0 Ep).
Qed.
Lemma kept_set : forall h s k v, older h -> kept s h (set_var V h s k v).
Proof.
  intros h s k v Ho. split; [rewrite set_var_length; lia|]. split; [now apply older_set|]. intros i Hi Hs. rewrite set_var_nth. destruct (nth_error h i); [|reflexivity].
  assert (Nat.eqb i s = false) as -> by now apply Nat.eqb_neq. reflexivity.
Qed.
Lemma view_set : forall h s x v y, s < length h -> named y -> view (set_var V h s (64%N :: x) v) s y = if text_eqb y x then v else view h s y.
Proof.
  intros h s x v y Hs Hy. unfold view, get. destruct (text_eqb y x) eqn:E.
  - apply text_eqb_spec in E. subst y. cbn [search]. rewrite set_var_nth. destruct (nth_error h s) as [c|] eqn:En; [|apply nth_error_None in En; lia].
    rewrite Nat.eqb_refl. cbn [svars]. rewrite assoc_dict_set, text_eqb_refl. reflexivity.
  - rewrite search_set_other; [reflexivity| |].
    + intros E'. injection E' as ->. rewrite text_eqb_refl in E. discriminate.
    + intros b Eb. injection Eb as <-. apply Hy.
Qed.

(** A new scope inside [s]. *)
Lemma search_app : forall f (h : heap) c i k, older h -> i < length h -> search V f (h ++ [c]) i k = search V f h i k.
Proof.
  induction f as [|f IH]; intros h c i k Ho Hi; [reflexivity|]. cbn [search]. rewrite nth_error_app1 by exact Hi. destruct (nth_error h i) as [c0|] eqn:E; [|reflexivity].
  destruct (assoc k (svars V c0)); [reflexivity|]. destruct (match k with 64%N :: b => assoc b (svars V c0) | _ => None end); [reflexivity|].
  destruct (sparent V c0) as [p|] eqn:Ep; [|reflexivity]. apply IH; [exact Ho|]. assert (Hp := Ho i c0 p E Ep). lia.
Qed.
Lemma older_new : forall h s, older h -> s < length h -> older (new_scope V h (Some s)).
Proof.
  intros h s Ho Hs i c p E Ep. unfold new_scope in E. destruct (Nat.lt_ge_cases i (length h)) as [Hi|Hi].
  - rewrite nth_error_app1 in E by exact Hi. exact (Ho i c p E Ep).
  - rewrite nth_error_app2 in E by exact Hi. destruct (i - length h) as [|n] eqn:En; [|destruct n; discriminate]. cbn in E. injection E as <-. cbn in Ep. injection Ep as <-. lia.
Qed.
Lemma view_new : forall h s y, older h -> s < length h -> view (new_scope V h (Some s)) (length h) y = view h s y.
Proof.
  intros h s y Ho Hs. unfold view, get, new_scope. cbn [search]. rewrite nth_error_app2 by lia. rewrite Nat.sub_diag. cbn [nth_error svars sparent assoc].
  rewrite search_app by (auto; lia). now rewrite (@search_more h Ho s (length h) _ Hs).
Qed.
Lemma kept_new : forall h s, older h -> s < length h -> kept (length h) h (new_scope V h (Some s)).
Proof.
  intros h s Ho Hs. split; [unfold new_scope; rewrite app_length; cbn; lia|]. split; [now apply older_new|]. intros i Hi _. unfold new_scope. now rewrite nth_error_app1.
Qed.
(** Scopes up to [s] decide what [s] shows. *)
Lemma search_prefix : forall (h h' : heap), older h -> forall i f k, (forall j, j <= i -> nth_error h' j = nth_error h j) -> search V f h' i k = search V f h i k.
Proof.
  intros h h' Ho i f. revert i. induction f as [|f IH]; intros i k H; [reflexivity|]. cbn [search]. rewrite (H i (le_n i)). destruct (nth_error h i) as [c|] eqn:E; [|reflexivity].
  destruct (assoc k (svars V c)); [reflexivity|]. destruct (match k with 64%N :: b => assoc b (svars V c) | _ => None end); [reflexivity|].
  destruct (sparent V c) as [p|] eqn:Ep; [|reflexivity]. apply IH. assert (Hp := Ho i c p E Ep). intros j Hj. apply H. lia.
Qed.

(** The conditions of the subquery *)
Lemma filter_views : forall l s h e, s < length h -> older h -> (forall y, named y -> view h s y = e y) ->
  kept s h (fold_left (set_filter V s) l h) /\ length (fold_left (set_filter V s) l h) = length h /\
  forall y, named y -> view (fold_left (set_filter V s) l h) s y =
    match find (fun kv => text_eqb (fst kv) y) (rev (flat_map (fun kv => match fst kv with Some k => if text_eqb k [] then [] else [(k, snd kv)] | None => [] end) l)) with Some kv => snd kv | None => e y end.
Proof.
  induction l as [|[[k|] v] l IH]; intros s h e Hs Ho He; cbn [fold_left flat_map].
  - split; [now apply kept_refl|]. split; [reflexivity|]. exact He.
  - cbn [set_filter fst snd]. destruct k as [|ch k]; [apply (IH s h e Hs Ho He)|]. set (h1 := set_var V h s (64%N :: ch :: k) v).
    destruct (IH s h1 (fun y => if text_eqb y (ch :: k) then v else e y)) as (A & B & C).
    + unfold h1. now rewrite set_var_length.
    + now apply older_set.
    + intros y Hy. unfold h1. rewrite (@view_set h s (ch :: k) v y Hs Hy). now rewrite (He y Hy).
    + split; [exact (kept_trans (kept_set _ _ _ Ho) A)|]. split; [rewrite B; apply set_var_length|]. intros y Hy. rewrite (C y Hy).
      change (text_eqb (ch :: k) []) with false. cbv iota. cbn [app rev]. rewrite find_app. destruct (find _ (rev _)); [reflexivity|]. cbn [find fst snd]. rewrite (text_eqb_sym (ch :: k) y). now destruct (text_eqb y (ch :: k)).
  - apply (IH s h e Hs Ho He).
Qed.
Lemma filters_views : forall fs s h e, s < length h -> older h -> (forall y, named y -> view h s y = e y) ->
  kept s h (set_filters V s h fs) /\ length (set_filters V s h fs) = length h /\ forall y, named y -> view (set_filters V s h fs) s y = given e fs y.
Proof.
  unfold set_filters, given, usable. induction fs as [|[ex l] fs IH]; intros s h e Hs Ho He; cbn [fold_left flat_map fst snd].
  - split; [now apply kept_refl|]. split; [reflexivity|]. exact He.
  - destruct ex as [|ch ex]; [apply (IH s h e Hs Ho He)|]. change (text_eqb (ch :: ex) []) with false. cbv iota. destruct (@filter_views l s h e Hs Ho He) as (A & B & C).
    destruct (IH s (fold_left (set_filter V s) l h) _ ltac:(rewrite B; exact Hs) (proj1 (proj2 A)) C) as (A' & B' & C').
    split; [exact (kept_trans A A')|]. split; [congruence|]. intros y Hy. rewrite (C' y Hy), rev_app_distr, find_app. destruct (find _ (rev (flat_map _ fs))); reflexivity.
Qed.
End Vars.

Section Run.
Variables V R : Type.
Variable null : V.
Variable alloc : list nat -> nat -> nat.
Hypothesis fresh : forall l n, ~ In (alloc l n) l.
Notation run := (run V R null alloc).
Notation state := (state V R).
Notation view := (view null).

Definition clean (st : state) : Prop := forall j, ~ In j (live V R st) -> s_tables st j = [].
Definition good (st : state) (ex : executor) (rest : list executor) (e : env V) : Prop :=
  s_current st = ex :: rest /\ e_scope ex < length (s_vars st) /\ older (s_vars st) /\ (forall y, named y -> view (s_vars st) (e_scope ex) y = e y).

Lemma run_meaning : forall p st ex rest e, named_all p -> good st ex rest e -> clean st ->
  let (st', ok) := run p st in
  let '(rs, ok', e') := meaning p e in
  ok = ok' /\ good st' ex rest e' /\ kept (e_scope ex) (s_vars st) (s_vars st') /\
  s_tables st' (e_id ex) = s_tables st (e_id ex) ++ rs /\
  (forall j, j <> e_id ex -> ok = true \/ In j (live V R st) -> s_tables st' j = s_tables st j).
Proof.
  induction p as [| |r p IH|x k IH|x v p IH|fs body IHb k IHk]; intros st ex rest e Hn Hg Hc; assert (Hg' := Hg); destruct Hg' as (G1 & G2 & G3 & G4).
  - cbn [Nested_Model.run meaning]. split; [reflexivity|]. split; [exact Hg|]. split; [now apply kept_refl|]. split; [now rewrite app_nil_r|auto].
  - cbn [Nested_Model.run meaning]. split; [reflexivity|]. split; [exact Hg|]. split; [now apply kept_refl|]. split; [now rewrite app_nil_r|auto].
  - cbn [Nested_Model.run meaning named_all] in *. rewrite G1. set (st1 := State (s_vars st) _ (ex :: rest) (s_given st)).
    assert (Hc1 : clean st1).
    { intros j Hj. unfold st1, live in *. cbn [s_current s_tables map] in *. unfold table_set. destruct (Nat.eqb j (e_id ex)) eqn:E; [apply Nat.eqb_eq in E; subst j; exfalso; apply Hj; now left|].
      apply Hc. unfold live. rewrite G1. exact Hj. }
    specialize (IH st1 ex rest e Hn (conj eq_refl (conj G2 (conj G3 G4))) Hc1). destruct (run p st1) as [st' ok]. destruct (meaning p e) as [[rs ok'] e']. destruct IH as (A & B & C & D & F).
    split; [exact A|]. split; [exact B|]. split; [exact C|]. split.
    + rewrite D. unfold st1. cbn [s_tables]. unfold table_set. rewrite Nat.eqb_refl. now rewrite <- app_assoc.
    + intros j Hj Ho. rewrite F; [|exact Hj|destruct Ho as [Ho|Ho]; [now left|right; unfold st1, live; cbn [s_current]; unfold live in Ho; now rewrite G1 in Ho]].
      unfold st1. cbn [s_tables]. unfold table_set. assert (Nat.eqb j (e_id ex) = false) as -> by now apply Nat.eqb_neq. reflexivity.
  - cbn [Nested_Model.run meaning named_all] in *. destruct Hn as [Hx Hn].
    assert (Es : scope_of V R st = e_scope ex) by (unfold scope_of; now rewrite G1). rewrite Es. change (get V (s_vars st) (e_scope ex) (64%N :: x) null) with (view (s_vars st) (e_scope ex) x).
    rewrite (G4 x Hx). exact (IH (e x) st ex rest e (Hn (e x)) Hg Hc).
  - cbn [Nested_Model.run meaning named_all] in *. destruct Hn as [Hx Hn].
    assert (Es : scope_of V R st = e_scope ex) by (unfold scope_of; now rewrite G1). rewrite Es. set (st1 := State (set_var V (s_vars st) (e_scope ex) (64%N :: x) v) (s_tables st) (s_current st) (s_given st)).
    assert (Hg1 : good st1 ex rest (assign e x v)).
    { split; [exact G1|]. unfold st1. cbn [s_vars]. split; [now rewrite set_var_length|]. split; [now apply older_set|]. intros y Hy. rewrite (@view_set V null (s_vars st) (e_scope ex) x v y G2 Hy). unfold assign. destruct (text_eqb y x); [reflexivity|now apply G4]. }
    assert (Hc1 : clean st1) by (intros j Hj; exact (Hc j Hj)).
    specialize (IH st1 ex rest (assign e x v) Hn Hg1 Hc1). destruct (run p st1) as [st' ok]. destruct (meaning p (assign e x v)) as [[rs ok'] e']. destruct IH as (A & B & C & D & F).
    split; [exact A|]. split; [exact B|]. split; [exact (kept_trans (kept_set _ _ _ G3) C)|]. split; [exact D|exact F].
  - cbn [Nested_Model.run meaning named_all] in *. destruct Hn as [Hb Hk].
    assert (Es : scope_of V R st = e_scope ex) by (unfold scope_of; now rewrite G1).
    set (i := alloc (live V R st) (s_given st)). set (h1 := new_scope V (s_vars st) (Some (e_scope ex))). set (n := length (s_vars st)). set (ex1 := Executor n i).
    assert (Hent : enter V R alloc st = State h1 (s_tables st) (ex1 :: s_current st) (S (s_given st))) by (unfold enter; rewrite Es; reflexivity). rewrite Hent.
    cbn [s_current s_vars s_tables s_given e_id]. change (scope_of V R (State h1 (s_tables st) (ex1 :: s_current st) (S (s_given st)))) with n.
    assert (Hl1 : length h1 = S n) by (unfold h1, new_scope, n; rewrite app_length; cbn; lia).
    assert (Ho1 : older h1) by now apply older_new. assert (Hv1 : forall y, named y -> view h1 n y = e y) by (intros y Hy; unfold h1, n; rewrite view_new by auto; now apply G4).
    destruct (@filters_views V null fs n h1 e ltac:(rewrite Hl1; lia) Ho1 Hv1) as (Kf & Lf & Vf). set (h2 := set_filters V n h1 fs) in *.
    set (st2 := State h2 (s_tables st) (ex1 :: s_current st) (S (s_given st))).
    assert (Hi : ~ In i (live V R st)) by (unfold i; apply fresh).
    assert (Hg2 : good st2 ex1 (ex :: rest) (given e fs)).
    { split; [unfold st2; cbn [s_current]; now rewrite G1|]. unfold st2. cbn [s_vars e_scope ex1]. split; [rewrite Lf, Hl1; cbn; lia|]. split; [exact (proj1 (proj2 Kf))|exact Vf]. }
    assert (Hc2 : clean st2).
    { intros j Hj. unfold st2, live in *. cbn [s_current s_tables map] in *. apply Hc. intros Hj'. apply Hj. now right. }
    specialize (IHb st2 ex1 (ex :: rest) (given e fs) Hb Hg2 Hc2). destruct (run body st2) as [st3 ok3]. destruct (meaning body (given e fs)) as [[rs3 ok3'] e3]. destruct IHb as (A & B & C & D & F). subst ok3'.
    destruct B as (B1 & B2 & B3 & B4). cbn [ex1 e_scope e_id] in *. unfold st2 in C, D, F. cbn [s_vars s_tables] in C, D, F. rewrite (Hc i Hi) in D. cbn [app] in D.
    assert (K1 : kept n (s_vars st) (s_vars st3)) by exact (kept_trans (kept_new G3 G2) (kept_trans Kf C)).
    assert (Hne : e_scope ex <> n) by (unfold n; lia).
    assert (Hpre : forall j, j < n -> nth_error (s_vars st3) j = nth_error (s_vars st) j) by (intros j Hj; apply (proj2 (proj2 K1)); [exact Hj|lia]).
    assert (Hl3 : n < length (s_vars st3)) by exact B2.
    assert (Hg3 : forall ts m, good (State (s_vars st3) ts (s_current st) m) ex rest e).
    { intros ts m. split; [exact G1|]. cbn [s_vars]. split; [unfold n in Hl3; lia|]. split; [exact B3|]. intros y Hy. rewrite <- (G4 y Hy). unfold Nested_Proofs.view, get. f_equal.
      rewrite (@search_prefix V (s_vars st) (s_vars st3) G3 (e_scope ex)); [reflexivity|]. intros j Hj. apply Hpre. unfold n. lia. }
    assert (K2 : kept (e_scope ex) (s_vars st) (s_vars st3)).
    { split; [unfold n in Hl3; lia|]. split; [exact B3|]. intros j Hj _. now apply Hpre. }
    destruct ok3.
    + unfold leave. cbn [s_vars s_tables s_current s_given tl]. rewrite B1, D. cbn [tl]. rewrite <- G1. set (st4 := State (s_vars st3) (table_set R (s_tables st3) i []) (s_current st) (s_given st3)).
      assert (Ht4 : forall j, s_tables st4 j = s_tables st j).
      { intros j. unfold st4. cbn [s_tables]. unfold table_set. destruct (Nat.eqb j i) eqn:E; [apply Nat.eqb_eq in E; subst j; symmetry; now apply Hc|]. apply F; [now apply Nat.eqb_neq|now left]. }
      assert (Hc4 : clean st4) by (intros j Hj; rewrite Ht4; now apply Hc).
      specialize (IHk rs3 st4 ex rest e (Hk rs3) (Hg3 _ _) Hc4). destruct (run (k rs3) st4) as [st' ok]. destruct (meaning (k rs3) e) as [[rs ok'] e']. destruct IHk as (A' & B' & C' & D' & F').
      split; [exact A'|]. split; [exact B'|]. split; [exact (kept_trans K2 C')|]. rewrite Ht4 in D'. split; [exact D'|]. intros j Hj Ho. rewrite F'; [apply Ht4|exact Hj|exact Ho].
    + split; [reflexivity|]. unfold leave. cbn [s_vars s_tables s_current s_given tl]. rewrite B1. cbn [tl]. split; [rewrite <- G1; apply Hg3|]. split; [exact K2|].
      assert (Hin : forall j, In j (live V R st) -> s_tables st3 j = s_tables st j).
      { intros j Hj. apply F; [intros ->; now apply Hi|]. right. unfold live. cbn [s_current map]. now right. }
      split; [|intros j Hj [Ho|Ho]; [discriminate|now apply Hin]]. rewrite app_nil_r. apply Hin. unfold live. rewrite G1. now left.
Qed.
End Run.

(** Which ON conditions compile. *)
From Verif Require Import Base PyVal Joins_Syntax Joins_Spec Joins_Model Joins_Proofs.

Lemma is_tab_is : forall T c, is_tab T c = tab_is T c.
Proof. intros T c. unfold is_tab, tab_is, tab_eqb. now destruct (ctab c). Qed.
Lemma unq : forall c, ctab c <> None -> unqualified c = false.
Proof. intros c H. unfold unqualified. destruct (ctab c); congruence. Qed.

Lemma parse_on1_accepts : forall cmpv T pl a, qualified a ->
  (forall k, In k (key_column T a) -> ~ In k (map fst (o_keys pl))) ->
  exists pl', parse_on1 cmpv T pl a = Ok pl' /\ map fst (o_keys pl') = map fst (o_keys pl) ++ key_column T a.
Proof.
  intros cmpv T pl a Hq Hk. unfold qualified in Hq.
  assert (Hex : forall k, ~ In k (map fst (o_keys pl)) -> existsb (fun x => text_eqb (fst x) k) (o_keys pl) = false).
  { intros k Hn. apply not_true_is_false. intros E. apply existsb_exists in E. destruct E as (x & Hx & E).
    apply text_eqb_spec in E. subst k. apply Hn. now apply in_map. }
  destruct a as [o l r|l f|cs f]; cbn [parse_on1].
  - destruct l as [c|cs f]; destruct r as [c'|cs' f']; cbn [col_of ocolumns ocols acols key_column] in *; cbv zeta iota beta; repeat match goal with |- context [is_tab T ?x] => rewrite (is_tab_is T x) end.
    + assert (unqualified c = false) as Uc by (apply unq, Hq; now left).
      assert (unqualified c' = false) as Uc' by (apply unq, Hq; right; now left).
      destruct o; try (destruct (tab_is T c), (tab_is T c'); rewrite Uc; eexists; (split; [reflexivity|]);
                       cbn [o_keys]; now rewrite app_nil_r).
      destruct (tab_is T c).
      * cbv beta iota zeta in *. rewrite Uc, Hex by (apply Hk; now left). eexists. split; [reflexivity|]. cbn [o_keys]. now rewrite map_app.
      * destruct (tab_is T c').
        -- cbv beta iota zeta in *. rewrite Uc', Hex by (apply Hk; now left). eexists. split; [reflexivity|]. cbn [o_keys]. now rewrite map_app.
        -- cbv beta iota zeta. rewrite Uc. eexists. split; [reflexivity|]. cbn [o_keys]. now rewrite app_nil_r.
    + assert (unqualified c = false) as Uc by (apply unq, Hq; now left).
      destruct o; try (destruct (tab_is T c); rewrite Uc; destruct cs'; eexists; (split; [reflexivity|]);
                       cbn [o_keys]; now rewrite app_nil_r).
      destruct (tab_is T c); rewrite Uc; destruct cs' as [|x xs].
      * eexists. split; [reflexivity|]. cbn [o_keys]. now rewrite app_nil_r.
      * rewrite Hex by (apply Hk; now left). eexists. split; [reflexivity|]. cbn [o_keys]. now rewrite map_app.
      * eexists. split; [reflexivity|]. cbn [o_keys]. now rewrite app_nil_r.
      * eexists. split; [reflexivity|]. cbn [o_keys]. now rewrite app_nil_r.
    + assert (unqualified c' = false) as Uc' by (apply unq, Hq, in_or_app; right; now left).
      destruct o; try (destruct (tab_is T c'); eexists; (split; [reflexivity|]);
                       cbn [o_keys]; now rewrite app_nil_r).
      destruct (tab_is T c').
      * cbv beta iota zeta in *. rewrite Uc'. destruct cs as [|x xs].
        -- eexists. split; [reflexivity|]. cbn [o_keys]. now rewrite app_nil_r.
        -- rewrite Hex by (apply Hk; now left). eexists. split; [reflexivity|]. cbn [o_keys]. now rewrite map_app.
      * eexists. split; [reflexivity|]. cbn [o_keys]. destruct cs; now rewrite app_nil_r.
    + destruct o; eexists; (split; [reflexivity|]); cbn [o_keys]; destruct cs; now rewrite app_nil_r.
  - destruct l as [c|cs g]; cbn [col_of key_column].
    + rewrite unq by (apply Hq; now left). eexists. split; [reflexivity|]. cbn [o_keys]. now rewrite app_nil_r.
    + eexists. split; [reflexivity|]. cbn [o_keys]. now rewrite app_nil_r.
  - eexists. split; [reflexivity|]. cbn [o_keys key_column]. now rewrite app_nil_r.
Qed.

Lemma NoDup_app_split : forall A (a b : list A), NoDup (a ++ b) -> forall x, In x b -> ~ In x a.
Proof.
  induction a as [|y a IH]; intros b H x Hx; [intros []|]. cbn in H. apply NoDup_cons_iff in H. destruct H as [H1 H2].
  intros [->|Hi]; [apply H1, in_or_app; now right|]. now apply (IH b H2 x Hx).
Qed.

Lemma parse_on_accepts : forall cmpv T l pl, (forall a, In a l -> qualified a) ->
  NoDup (map fst (o_keys pl) ++ flat_map (key_column T) l) -> exists pl', parse_on cmpv T pl l = Ok pl'.
Proof.
  induction l as [|a l IH]; intros pl Hq Hn; cbn [parse_on]; [now exists pl|]. cbn [flat_map] in Hn.
  destruct (@parse_on1_accepts cmpv T pl a) as (pl' & E & Ek).
  - apply Hq. now left.
  - intros k Hk. eapply NoDup_app_split; [exact Hn|]. apply in_or_app. now left.
  - rewrite E. apply IH; [intros a' Ha; apply Hq; now right|]. rewrite Ek, <- app_assoc. exact Hn.
Qed.

Lemma run_joins_accepts : forall cmpv d p js es, (forall j, In j js -> join_type_ok j = true) ->
  (forall j a, In j js -> In a (jon j) -> qualified a) -> (forall j, In j js -> single_keys j) ->
  exists res, run_joins cmpv d p js es = Ok res.
Proof.
  induction js as [|j js IH]; intros es Ht Hq Hk; cbn [run_joins]; [now exists es|].
  rewrite Ht by (now left).
  destruct (@parse_on_accepts cmpv (jtab j) (jon j) (Plan [] [] [])) as (pl & ->).
  - intros a Ha. apply (Hq j); [now left|exact Ha].
  - exact (Hk j (or_introl eq_refl)).
  - apply IH; [intros j' Hj; apply Ht; now right|intros j' a Hj; apply Hq; now right|intros j' Hj; apply Hk; now right].
Qed.

Lemma scoped_qualified : forall js ts, scoped ts js -> forall j a, In j js -> In a (jon j) -> qualified a.
Proof.
  induction js as [|j js IH]; intros ts Hs j' a Hj Ha; [destruct Hj|]. cbn [scoped] in Hs. destruct Hs as (_ & H2 & H3).
  destruct Hj as [<-|Hj]; [|exact (IH _ H3 j' a Hj Ha)]. intros c Hc. destruct (H2 a c Ha Hc) as (tb & -> & _). discriminate.
Qed.
Lemma scoped_neq : forall js ts p, In p ts -> scoped ts js -> forall j, In j js -> jtab j <> p.
Proof.
  induction js as [|j js IH]; intros ts p Hp Hs j' Hj; [destruct Hj|]. cbn [scoped] in Hs. destruct Hs as (H1 & _ & H3).
  destruct Hj as [<-|Hj]; [intros E; apply H1; rewrite E; exact Hp|]. exact (IH (jtab j :: ts) p (or_intror Hp) H3 j' Hj).
Qed.

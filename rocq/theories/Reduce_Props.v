(** C23: a GROUP BY over a source read in batches. *)
From Coq Require Import SpecFloat.
From Verif Require Import Base PyVal Agg_Model Agg_Spec Agg_Proofs Agg_Props Reduce_Model Reduce_Spec.
Open Scope nat_scope.

Section Keys.
Context {K : Type}.
Variable same : K -> K -> bool.
Hypothesis Eq : equivalence_b same.
Definition seenb (S : list K) (k : K) : bool := existsb (fun k' => same k' k) S.

Lemma seenb_app : forall a b k, seenb (a ++ b) k = seenb a k || seenb b k.
Proof. intros. apply existsb_app. Qed.
Lemma seenb_eq : forall S k k', same k k' = true -> seenb S k = seenb S k'.
Proof.
  destruct Eq as (R & Sy & Tr). intros S k k' H. unfold seenb. induction S as [|x S IH]; cbn; auto. rewrite IH. f_equal.
  destruct (same x k) eqn:E.
  - symmetry. eapply Tr; eauto.
  - destruct (same x k') eqn:F; auto. rewrite Sy in H. rewrite (Tr x k' k) in E by auto. congruence.
Qed.
Lemma keys_ext : forall V (rows : list (K * V)) S1 S2, (forall k, seenb S1 k = seenb S2 k) ->
  keys_from same S1 rows = keys_from same S2 rows.
Proof.
  induction rows as [|[k v] rows IH]; intros S1 S2 H; auto. cbn. fold (seenb S1 k) (seenb S2 k). rewrite H.
  destruct (seenb S2 k); [apply IH; auto|]. f_equal. apply IH. intro x. rewrite !seenb_app, H. reflexivity.
Qed.
Lemma keys_from_app : forall V (a b : list (K * V)) S,
  keys_from same S (a ++ b) = keys_from same S a ++ keys_from same (S ++ keys_from same S a) b.
Proof.
  induction a as [|[k v] a IH]; intros b S; cbn.
  - rewrite app_nil_r. reflexivity.
  - destruct (existsb (fun k' => same k' k) S); [apply IH|]. cbn. f_equal. rewrite IH. f_equal. rewrite <- app_assoc. reflexivity.
Qed.
Lemma keys_from_filter : forall V (b : list (K * V)) S S',
  keys_from same (S ++ S') b = filter (fun k => negb (seenb S k)) (keys_from same S' b).
Proof.
  destruct Eq as (R & Sy & Tr). induction b as [|[k v] b IH]; intros S S'; auto. cbn.
  fold (seenb (S ++ S') k) (seenb S' k). rewrite seenb_app. destruct (seenb S' k) eqn:E'.
  - rewrite orb_true_r. apply IH.
  - rewrite orb_false_r. cbn [filter]. destruct (seenb S k) eqn:E; cbn [negb].
    + rewrite <- IH. apply keys_ext. intro x. rewrite !seenb_app. destruct (seenb S x) eqn:F; auto. cbn.
      assert (same k x = false) as ->.
      { destruct (same k x) eqn:G; auto. rewrite <- (seenb_eq S k x G) in F. congruence. }
      rewrite !orb_false_r. reflexivity.
    + f_equal. rewrite <- app_assoc. apply IH.
Qed.
Lemma keys_app : forall V (a b : list (K * V)),
  keys same (a ++ b) = keys same a ++ filter (fun k => negb (seenb (keys same a) k)) (keys same b).
Proof.
  intros. unfold keys. rewrite keys_from_app. f_equal. cbn [app]. rewrite <- (app_nil_r (keys_from same [] a)) at 1. apply keys_from_filter.
Qed.

(** keys are pairwise different, and cover *)
Lemma keys_from_distinct : forall V (rows : list (K * V)) S,
  ForallOrdPairs (fun a b => same a b = false) (keys_from same S rows) /\
  (forall k, In k (keys_from same S rows) -> seenb S k = false /\ In k (map fst rows)).
Proof.
  induction rows as [|[k v] rows IH]; intros S; cbn.
  - split; [constructor|intros k []].
  - fold (seenb S k). destruct (seenb S k) eqn:E.
    + destruct (IH S) as [A B]. split; auto. intros x Hx. destruct (B x Hx). auto.
    + destruct (IH (S ++ [k])) as [A B]. split.
      * constructor; auto. apply Forall_forall. intros x Hx. destruct (B x Hx) as [F _]. rewrite seenb_app in F.
        apply orb_false_iff in F as [_ F]. cbn in F. rewrite orb_false_r in F. auto.
      * intros x [<-|Hx]; auto. destruct (B x Hx) as [F G]. rewrite seenb_app in F. apply orb_false_iff in F as [F _]. auto.
Qed.
Lemma seen_keys : forall V (rows : list (K * V)) k, seenb (keys same rows) k = seenb (map fst rows) k.
Proof.
  intros V rows k. induction rows as [|[k0 v] rows IH] using rev_ind; auto.
  rewrite keys_app, map_app, !seenb_app, IH. change (keys same [(k0, v)]) with [k0]. cbn [map fst filter].
  destruct (seenb (keys same rows) k0) eqn:E; cbn [negb].
  - cbn. rewrite !orb_false_r. destruct (same k0 k) eqn:F; [|rewrite orb_false_r; auto].
    rewrite (seenb_eq _ _ _ F), IH in E. rewrite E. reflexivity.
  - reflexivity.
Qed.
Lemma keys_map : forall V W (f : K -> W) (rows : list (K * V)),
  keys same (map (fun k => (k, f k)) (keys same rows)) = keys same rows.
Proof.
  intros V W f rows. assert (D := proj1 (keys_from_distinct _ rows [])). fold (keys same rows) in D.
  induction (keys same rows) as [|k ks IH] using rev_ind; auto.
  assert (D' : ForallOrdPairs (fun a b => same a b = false) ks /\ seenb ks k = false).
  { clear IH. induction ks as [|x ks IH]; [split; [constructor|auto]|]. cbn in D. inversion D as [|? ? F D']; subst.
    apply Forall_app in F as [F1 F2]. inversion F2; subst. destruct (IH D') as [A B]. split; [constructor; auto|].
    cbn. unfold seenb in B. rewrite H1, B. reflexivity. }
  destruct D' as [D' N]. rewrite map_app, keys_app, (IH D'). cbn. rewrite N. reflexivity.
Qed.
End Keys.

Section Group.
Context {K S : Type}.
Variable same : K -> K -> bool.
Hypothesis Eq : equivalence_b same.
Variable init : S.

Definition hs {W} (step : S -> W -> res S) (ws : list W) : S :=
  match run step init ws with Ok s => s | Err _ => init end.

Lemma members_app : forall V (a b : list (K * V)) k, members same (a ++ b) k = members same a k ++ members same b k.
Proof. intros. unfold members. rewrite filter_app. apply map_app. Qed.
Lemma members_eq : forall V (rows : list (K * V)) k k', same k k' = true -> members same rows k = members same rows k'.
Proof.
  destruct Eq as (R & Sy & Tr). intros V rows k k' H. unfold members. f_equal. apply filter_ext. intros [x v]. cbn.
  destruct (same k x) eqn:E.
  - symmetry. apply (Tr k' k x); auto. rewrite Sy. auto.
  - destruct (same k' x) eqn:F; auto. rewrite (Tr k k' x) in E by auto. congruence.
Qed.
Lemma members_nil : forall V (rows : list (K * V)) k, seenb same (map fst rows) k = false -> members same rows k = [].
Proof.
  destruct Eq as (R & Sy & Tr). induction rows as [|[x v] rows IH]; intros k H; auto. cbn in H. apply orb_false_iff in H as [H1 H2].
  unfold members. cbn. rewrite Sy, H1. apply IH. exact H2.
Qed.

Lemma upd_map : forall W (step : S -> W -> res S) k w ks (g : K -> S),
  ForallOrdPairs (fun a b => same a b = false) ks ->
  (forall k', In k' ks -> same k' k = true -> exists s, step (g k') w = Ok s) ->
  (seenb same ks k = false -> exists s, step init w = Ok s) ->
  upd same init step k w (map (fun k => (k, g k)) ks) =
  Ok (map (fun k' => (k', if same k' k then match step (g k') w with Ok s => s | Err _ => init end else g k')) ks ++
      (if seenb same ks k then [] else [(k, match step init w with Ok s => s | Err _ => init end)])).
Proof.
  destruct Eq as (R & Sy & Tr). intros W step k w ks g D. induction D as [|x ks F D IH]; intros H1 H2; cbn [map upd app].
  - destruct (H2 eq_refl) as [s E]. cbn. rewrite E. reflexivity.
  - cbn [seenb existsb]. fold (seenb same ks k). destruct (same x k) eqn:E.
    + destruct (H1 x (or_introl eq_refl) E) as [s Es]. rewrite Es. cbn [bind orb]. rewrite app_nil_r. do 2 f_equal.
      apply map_ext_in. intros y Hy. f_equal. rewrite Forall_forall in F. specialize (F y Hy).
      destruct (same y k) eqn:G; auto. rewrite Sy in G. rewrite (Tr x k y) in F by auto. congruence.
    + rewrite IH.
      * cbn [bind orb]. reflexivity.
      * intros k' Hk. apply H1. right; auto.
      * intro N. apply H2. cbn. unfold seenb in N. rewrite E, N. reflexivity.
Qed.

(** group = the groups of the specification, each folded *)
Lemma group_spec : forall W (step : S -> W -> res S) rows,
  (forall k p q, members same rows k = p ++ q -> exists s, run step init p = Ok s) ->
  group same init step rows = Ok (map (fun k => (k, hs step (members same rows k))) (keys same rows)).
Proof.
  destruct Eq as (R & Sy & Tr).
  intros W step rows. induction rows as [|[k w] rows IH] using rev_ind; intros H; [reflexivity|].
  unfold group. rewrite run_app. fold (group same init step rows).
  rewrite IH by (intros k0 p q E; apply (H k0 p (q ++ members same [(k, w)] k0)); rewrite members_app, E, app_assoc; reflexivity).
  cbn [bind run fst snd].
  assert (M : forall k', members same (rows ++ [(k, w)]) k' = members same rows k' ++ (if same k' k then [w] else [])).
  { intro k'. rewrite members_app. f_equal. unfold members. cbn. destruct (same k' k); reflexivity. }
  assert (St : forall k', same k' k = true -> exists s, run step init (members same rows k') = Ok (hs step (members same rows k')) /\ step (hs step (members same rows k')) w = Ok s).
  { intros k' E. destruct (H k' (members same rows k') [w]) as [a Ea]; [rewrite M, E; reflexivity|].
    destruct (H k' (members same rows k' ++ [w]) []) as [b Eb]; [rewrite M, E, app_nil_r; reflexivity|].
    rewrite run_app, Ea in Eb. cbn [bind run] in Eb. unfold hs. rewrite Ea. destruct (step a w) as [s|] eqn:Es; [|discriminate].
    exists s. auto. }
  rewrite upd_map.
  - cbn [bind]. do 1 f_equal. rewrite (keys_app same Eq). change (keys same [(k, w)]) with [k]. cbn [filter]. rewrite map_app. f_equal.
    + apply map_ext_in. intros k' Hk. f_equal. rewrite M. destruct (same k' k) eqn:E; [|rewrite app_nil_r; auto].
      destruct (St k' E) as (s & Ea & Es). rewrite Es. unfold hs. rewrite run_app, Ea. cbn [bind run]. rewrite Es. reflexivity.
    + destruct (seenb same (keys same rows) k) eqn:E; cbn [negb map]; auto. do 2 f_equal.
      rewrite M, R. rewrite members_nil by (rewrite <- seen_keys by auto; auto). unfold hs. cbn. destruct (step init w); reflexivity.
  - apply keys_from_distinct.
  - intros k' Hk E. destruct (St k' E) as (s & _ & Es). eauto.
  - intro N. destruct (St k (R k)) as (s & _ & Es). rewrite members_nil in Es by (rewrite <- seen_keys by auto; auto).
    unfold hs in Es. cbn in Es. eauto.
Qed.
End Group.

Section Main.
Context {K V S : Type}.
Variable same : K -> K -> bool.
Hypothesis Eq : equivalence_b same.
Variable init : S.
Variable agg : S -> V -> res S.
Variable red : S -> S -> res S.
Variable D : list V -> Prop.
Hypothesis prefix : forall xs ys, D (xs ++ ys) -> D xs.
Hypothesis inv : batch_invariant (run agg init) red D.

Definition tab (rows : list (K * V)) : list (K * S) :=
  map (fun k => (k, hs init agg (members same rows k))) (keys same rows).

Lemma D_run : forall xs, D xs -> run agg init xs = Ok (hs init agg xs).
Proof. intros xs H. destruct (inv xs []) as (a & _ & _ & E & _); [rewrite app_nil_r; auto|]. unfold hs. rewrite E. reflexivity. Qed.
Lemma D_red : forall xs ys, D (xs ++ ys) -> run agg init ys = Ok (hs init agg ys) /\
  red (hs init agg xs) (hs init agg ys) = Ok (hs init agg (xs ++ ys)).
Proof. intros xs ys H. destruct (inv xs ys H) as (a & b & c & Ea & Eb & Er & Ec). unfold hs. rewrite Ea, Eb, Ec. auto. Qed.

Definition good (rows : list (K * V)) : Prop := forall k, D (members same rows k).

Lemma group_tab : forall pre rows, good (pre ++ rows) -> group same init agg rows = Ok (tab rows).
Proof.
  intros pre rows G. apply group_spec; auto. intros k p q E.
  assert (H : D (members same pre k ++ p)).
  { apply prefix with (ys := q). rewrite <- app_assoc, <- E, <- members_app. apply G. }
  destruct (D_red _ _ H) as [R _]. eauto.
Qed.

(** the rows of a concatenation of tables *)
Lemma members_tab : forall rows k, members same (tab rows) k =
  if seenb same (map fst rows) k then [hs init agg (members same rows k)] else [].
Proof.
  intros rows k. destruct Eq as (R & Sy & Tr). rewrite <- seen_keys by auto. unfold tab.
  assert (Dk := proj1 (keys_from_distinct same _ rows [])). fold (keys same rows) in Dk.
  unfold members at 1. induction Dk as [|x ks F Dk IH]; auto.
  cbn [map filter fst]. rewrite Sy. cbn [seenb existsb]. fold (seenb same ks k). destruct (same x k) eqn:E.
  - cbn [map snd orb]. f_equal; [f_equal; apply members_eq; auto|].
    rewrite Forall_forall in F.
    assert (Z : seenb same ks k = false).
    { unfold seenb. destruct (existsb (fun k' => same k' k) ks) eqn:X; auto. apply existsb_exists in X as (y & Hy & Ey).
      rewrite Sy in Ey. specialize (F y Hy). rewrite (Tr x k y) in F by auto. congruence. }
    rewrite Z in IH. exact IH.
  - cbn [orb]. exact IH.
Qed.

Lemma keys_tabs : forall segs, keys same (concat (map tab segs)) = keys same (concat segs).
Proof.
  induction segs as [|g segs IH] using rev_ind; auto.
  rewrite map_app, !concat_app, !keys_app by auto. cbn [map concat]. rewrite !app_nil_r, IH. f_equal. f_equal. apply keys_map. auto.
Qed.

Lemma run_red_tabs : forall segs k, good (concat segs) ->
  run red init (members same (concat (map tab segs)) k) = Ok (hs init agg (members same (concat segs) k)).
Proof.
  induction segs as [|g segs IH] using rev_ind; intros k G; [reflexivity|].
  rewrite map_app, !concat_app, !members_app. cbn [map concat]. rewrite !app_nil_r.
  assert (G' : good (concat segs)).
  { intro k'. apply prefix with (ys := members same g k'). rewrite <- members_app. specialize (G k').
    rewrite concat_app in G. cbn in G. rewrite app_nil_r in G. exact G. }
  rewrite run_app, IH by auto. cbn [bind]. rewrite members_tab.
  assert (Dk : D (members same (concat segs) k ++ members same g k)).
  { rewrite <- members_app. specialize (G k). rewrite concat_app in G. cbn in G. rewrite app_nil_r in G. exact G. }
  destruct (seenb same (map fst g) k) eqn:E; cbn [run].
  - destruct (D_red _ _ Dk) as [_ ->]. reflexivity.
  - rewrite (members_nil same Eq _ g) by auto. rewrite app_nil_r. reflexivity.
Qed.

Lemma reduce_tabs : forall segs, good (concat segs) ->
  run_reduce same init red (concat (map tab segs)) = Ok (tab (concat segs)).
Proof.
  intros segs G. unfold run_reduce.
  rewrite (group_spec same Eq init S red).
  - f_equal. unfold tab at 3. rewrite keys_tabs. apply map_ext. intro k. f_equal. unfold hs at 1. rewrite run_red_tabs; auto.
  - intros k p q E. assert (X := run_red_tabs segs k G). rewrite E, run_app in X. destruct (run red init p); [eauto|discriminate].
Qed.

(** invariant of the hooker: the table is a concatenation of the tables of h_batches segments *)
Lemma run_hook : forall batch limited batches done h segs,
  good (done ++ concat batches) -> h_table h = concat (map tab segs) -> concat segs = done -> length segs <= h_batches h ->
  exists h' segs', run (batch_step same init agg red batch limited) h batches = Ok h' /\
    h_table h' = concat (map tab segs') /\ concat segs' = done ++ concat batches /\ length segs' <= h_batches h'.
Proof.
  induction batches as [|b batches IH]; intros done h segs G T C L; cbn [run].
  - exists h, segs. rewrite app_nil_r. auto.
  - cbn [concat] in G. unfold batch_step at 1. rewrite (group_tab done b).
    2:{ intro k. apply prefix with (ys := members same (concat batches) k). rewrite <- members_app, <- app_assoc. apply G. }
    cbn [bind].
    assert (X : exists h1 segs1, outputed same init red batch limited (tab b) h = Ok h1 /\ h_table h1 = concat (map tab segs1) /\
        concat segs1 = done ++ b /\ length segs1 <= h_batches h1).
    { assert (R : run_reduce same init red (h_table h ++ tab b) = Ok (tab (done ++ b))).
      { rewrite T. replace (concat (map tab segs) ++ tab b) with (concat (map tab (segs ++ [b])))
          by (rewrite map_app, concat_app; cbn; rewrite app_nil_r; reflexivity).
        replace (done ++ b) with (concat (segs ++ [b])) by (rewrite concat_app, C; cbn; rewrite app_nil_r; reflexivity).
        apply reduce_tabs. rewrite concat_app, C. cbn. rewrite app_nil_r.
        intro k. apply prefix with (ys := members same (concat batches) k). rewrite <- members_app, <- app_assoc. apply G. }
      unfold outputed. destruct (tab b) as [|r0 rs] eqn:Tb.
      - (* an empty part: no rows at all *)
        assert (b = []). { destruct b as [|[k v] b]; auto. unfold tab, keys in Tb. cbn in Tb. discriminate. }
        subst b. exists (mkhook (h_count h) (h_batches h) (h_table h ++ [])), segs.
        cbn [h_table h_batches]. rewrite !app_nil_r. auto.
      - rewrite <- Tb in *. clear Tb r0 rs. 
        assert (Y : forall u : unit, exists h1 segs1, (do tbl' <- run_reduce same init red (h_table h ++ tab b); Ok (mkhook 0 1 tbl')) = Ok h1 /\
          h_table h1 = concat (map tab segs1) /\ concat segs1 = done ++ b /\ length segs1 <= h_batches h1).
        { intros _. rewrite R. cbn [bind]. eexists _, [done ++ b]. split; [reflexivity|]. cbn. rewrite !app_nil_r. auto. }
        destruct (_ && _ && _); [exact (Y tt)|]. destruct (limited _); [exact (Y tt)|].
        eexists _, (segs ++ [b]). split; [reflexivity|]. cbn [h_table h_batches].
        rewrite T, map_app, !concat_app, app_length. cbn. rewrite !app_nil_r, C. repeat split; auto. lia. }
    destruct X as (h1 & segs1 & -> & T1 & C1 & L1). cbn [bind].
    destruct (IH (done ++ b) h1 segs1) as (h' & segs' & E & T' & C' & L'); auto.
    + rewrite <- app_assoc. exact G.
    + exists h', segs'. rewrite E, C', <- app_assoc. auto.
Qed.

Lemma run_batches_tab : forall batch limited batches, good (concat batches) ->
  run_batches same init agg red batch limited batches = Ok (tab (concat batches)).
Proof.
  intros batch limited batches G. unfold run_batches.
  destruct (run_hook batch limited batches [] (mkhook 0 0 []) []) as (h & segs & E & T & C & L); auto.
  rewrite E. cbn [bind]. unfold finaled. destruct (h_batches h <=? 1) eqn:B.
  - apply Nat.leb_le in B. rewrite T. cbn in C. rewrite <- C. destruct segs as [|g [|g' segs]]; cbn in *; try lia; auto.
    rewrite !app_nil_r. reflexivity.
  - rewrite T, reduce_tabs by (rewrite C; exact G). rewrite C. reflexivity.
Qed.
End Main.

(** C23.  For every aggregate that is batch invariant on the groups at hand, every batch size, every
    way the source cuts its rows into batches and every moment at which the row limit triggers an early
    merge, the batched run succeeds with one row per group, in order of first appearance of the key, whose
    state is that of the aggregate over all rows of the group; the one-pass run gives the same table. *)
Theorem streaming_group_by : forall (K V S : Type) (same : K -> K -> bool) (init : S) agg red (D : list V -> Prop),
  equivalence_b same -> (forall xs ys, D (xs ++ ys) -> D xs) ->
  batch_invariant (run agg init) red D ->
  forall batch limited batches, let rows := concat batches in
  (forall k, D (members same rows k)) ->
  exists tbl, run_batches same init agg red batch limited batches = Ok tbl /\
    group same init agg rows = Ok tbl /\
    map fst tbl = keys same rows /\
    (forall k s, In (k, s) tbl -> run agg init (members same rows k) = Ok s).
Proof.
  intros K V S same init agg red D Eq P I batch limited batches rows G.
  exists (tab same init agg rows). split; [eapply run_batches_tab; eauto|].
  split; [eapply (group_tab same Eq init agg red D P I []); exact G|]. split.
  - unfold tab. rewrite map_map. cbn. apply map_id.
  - intros k s H. unfold tab in H. apply in_map_iff in H as (k' & E & _). injection E as -> <-.
    apply (D_run init agg red D I). apply G.
Qed.
Print Assumptions streaming_group_by.

(** Instances: COUNT, COUNT DISTINCT, SUM of integers, MAX, MIN, AVG of integers, GROUP_CONCAT, ARRAY. *)
Definition streams {S : Type} (init : S) (agg : S -> val -> res S) (red : S -> S -> res S) (D : list val -> Prop) : Prop :=
  forall same : val -> val -> bool, equivalence_b same -> forall batch limited batches,
  (forall k, D (members same (concat batches) k)) ->
  exists tbl, run_batches same init agg red batch limited batches = Ok tbl /\
    group same init agg (concat batches) = Ok tbl /\ map fst tbl = keys same (concat batches) /\
    (forall k s, In (k, s) tbl -> run agg init (members same (concat batches) k) = Ok s).
Theorem streaming_group_by_aggregates : forall str_of,
  streams VNone count_agg base_reduce (fun _ => True) /\
  streams None set_agg set_reduce (fun _ => True) /\
  streams VNone sum_agg base_reduce (fun xs => exists z, sums xs z) /\
  streams VNone (max_agg str_of) max_reduce (fun xs => comparable (nonnull xs)) /\
  streams VNone (min_agg str_of) min_reduce (fun xs => comparable (nonnull xs)) /\
  streams None avg_agg avg_reduce (fun xs => ~ In VNone xs /\ exists z, sums xs z) /\
  streams None (concat_agg str_of) list_reduce (fun _ => True) /\
  streams None array_agg list_reduce (fun _ => True).
Proof.
  assert (CP : forall xs ys, comparable (nonnull (xs ++ ys)) -> comparable (nonnull xs)).
  { intros xs ys H x y Hx Hy. apply H; rewrite nonnull_app; apply in_or_app; auto. }
  assert (SP : forall xs ys, (exists z, sums (xs ++ ys) z) -> exists z, sums xs z).
  { intros xs ys [z H]. apply sums_app_inv in H as (a & b & A & _). eauto. }
  intro str_of. repeat split; intros same Eq batch limited batches G.
  - apply (streaming_group_by val val val same VNone count_agg base_reduce (fun _ => True)); auto; apply count_batch.
  - apply (streaming_group_by val val _ same None set_agg set_reduce (fun _ => True)); auto; apply count_distinct_batch.
  - apply (streaming_group_by val val val same VNone sum_agg base_reduce (fun xs => exists z, sums xs z)); auto; apply sum_batch.
  - apply (streaming_group_by val val val same VNone (max_agg str_of) max_reduce (fun xs => comparable (nonnull xs))); auto; apply max_batch.
  - apply (streaming_group_by val val val same VNone (min_agg str_of) min_reduce (fun xs => comparable (nonnull xs))); auto; apply min_batch.
  - apply (streaming_group_by val val _ same None avg_agg avg_reduce (fun xs => ~ In VNone xs /\ exists z, sums xs z)); auto.
    + intros xs ys [N H]. split; [intro X; apply N; apply in_or_app; auto|eapply SP; eauto].
    + apply avg_batch.
  - apply (streaming_group_by val val _ same None (concat_agg str_of) list_reduce (fun _ => True)); auto; apply group_concat_batch.
  - apply (streaming_group_by val val _ same None array_agg list_reduce (fun _ => True)); auto; apply group_array_batch.
Qed.
Print Assumptions streaming_group_by_aggregates.

(** A run of three batches with an early merge. *)
Definition same_int (a b : val) : bool := match a, b with VInt x, VInt y => Z.eqb x y | VNone, VNone => true | _, _ => false end.
Example streaming_ex :
  run_batches (fun a b : nat => Nat.eqb a b) VNone sum_agg base_reduce 2 (fun _ => false)
    [[(1, VInt 5); (2, VInt 7)]; [(2, VInt 1)]; []; [(3, VNone); (1, VInt 1)]] =
  Ok [(1, VInt 6); (2, VInt 8); (3, VInt 0)].
Proof. vm_compute. reflexivity. Qed.
Example same_nat_equivalence : equivalence_b (fun a b : nat => Nat.eqb a b).
Proof.
  split; [apply Nat.eqb_refl|]. split; [apply Nat.eqb_sym|]. intros a b c H1 H2. apply Nat.eqb_eq in H1, H2. subst. apply Nat.eqb_refl.
Qed.

(** AVG with NULLs and JSON_OBJECTAGG are not batch invariant, and the batched table differs. *)
Theorem streaming_avg_refuted :
  run_batches (fun a b : nat => Nat.eqb a b) None avg_agg avg_reduce 0 (fun _ => false) [[(1, VInt 4); (1, VNone)]] = Ok [(1, Some (2%Z, VInt 4))] /\
  run_batches (fun a b : nat => Nat.eqb a b) None avg_agg avg_reduce 0 (fun _ => false) [[(1, VInt 4)]; [(1, VNone)]] = Ok [(1, Some (1%Z, VInt 4))].
Proof. split; vm_compute; reflexivity. Qed.
Print Assumptions streaming_avg_refuted.

(** C38. *)
From Verif Require Import Base Agg_Model Json_Proofs Config_Model Config_Props Temp_Model Temp_Spec.
From Coq Require Import Lia ZArith.
Local Open Scope Z_scope.

Section Props.
Variable tasks : nat -> task.
Notation run := (run tasks).
Notation step := (step tasks).
Notation exists_after := (exists_after tasks).
Notation reads := (reads tasks).
Notation unused := (unused tasks).
Notation writes_in_time := (writes_in_time tasks).

Definition loads_b (n : text) (i : nat) : bool := match loads_from (tasks i) with Some m => text_eqb m n | None => false end.
Definition self_b (n : text) (i : nat) : bool := match writes_to (tasks i) with Some m => text_eqb m n | None => false end.
Definition opened_ids (h : list ev) : list nat := concat (map (fun e => match e with Open i => [i] | _ => [] end) h).
Definition closed_ids (h : list ev) : list nat := concat (map (fun e => match e with Close i _ => [i] | _ => [] end) h).
Definition opens (h : list ev) (n : text) : list nat := filter (loads_b n) (opened_ids h).
Definition closes (h : list ev) (n : text) : list nat := filter (fun i => loads_b n i && negb (self_b n i)) (closed_ids h).
Definition count (n : text) (u : list (text * Z)) : Z := match assoc n u with Some z => z | None => 0 end.

Lemma loads_b_spec : forall n i, loads_b n i = true <-> loads_from (tasks i) = Some n.
Proof. intros n i. unfold loads_b. destruct (loads_from (tasks i)) as [m|]; [rewrite text_eqb_spec; split; congruence|split; discriminate]. Qed.
Lemma self_b_spec : forall n i, self_b n i = true <-> writes_to (tasks i) = Some n.
Proof. intros n i. unfold self_b. destruct (writes_to (tasks i)) as [m|]; [rewrite text_eqb_spec; split; congruence|split; discriminate]. Qed.
Lemma reads_b : forall n i, loads_b n i && negb (self_b n i) = true <-> reads i n.
Proof.
  intros n i. unfold Temp_Spec.reads. rewrite Bool.andb_true_iff, loads_b_spec, Bool.negb_true_iff. split; intros [A B]; split; try exact A.
  - intro W. apply self_b_spec in W. congruence.
  - destruct (self_b n i) eqn:E; [|reflexivity]. apply self_b_spec in E. contradiction.
Qed.
Lemma ids_open : forall h i, In i (opened_ids h) <-> In (Open i) h.
Proof.
  intros h i. unfold opened_ids. rewrite in_concat. split.
  - intros (l & I & J). apply in_map_iff in I. destruct I as ([k|k|k b|f] & <- & I); cbn in J; try contradiction J; destruct J as [<-|[]]; exact I.
  - intro I. exists [i]. split; [apply in_map_iff; exists (Open i); auto|left; reflexivity].
Qed.
Lemma ids_closed : forall h i, In i (closed_ids h) <-> closed h i.
Proof.
  intros h i. unfold closed_ids, closed. rewrite in_concat. split.
  - intros (l & I & J). apply in_map_iff in I. destruct I as ([k|k|k b|f] & <- & I); cbn in J; try contradiction J; destruct J as [<-|[]]; exists b; exact I.
  - intros (b & I). exists [i]. split; [apply in_map_iff; exists (Close i b); auto|left; reflexivity].
Qed.
Lemma opened_app : forall a b, opened_ids (a ++ b) = opened_ids a ++ opened_ids b.
Proof. intros. unfold opened_ids. rewrite map_app, concat_app. reflexivity. Qed.
Lemma closed_app : forall a b, closed_ids (a ++ b) = closed_ids a ++ closed_ids b.
Proof. intros. unfold closed_ids. rewrite map_app, concat_app. reflexivity. Qed.
Lemma run_snoc : forall h e, run (h ++ [e]) = step (run h) e.
Proof. intros. unfold Temp_Model.run. rewrite fold_left_app. reflexivity. Qed.
Lemma once_prefix : forall h e, once (h ++ [e]) -> once h.
Proof.
  intros h e [A B]. split.
  - intros h1 h2 i E. apply (A h1 (h2 ++ [e])). rewrite E, <- app_assoc. reflexivity.
  - intros h1 h2 i b E. apply (B h1 (h2 ++ [e]) i b). rewrite E, <- app_assoc. reflexivity.
Qed.
Lemma NoDup_snoc : forall A (l : list A) x, NoDup l -> ~ In x l -> NoDup (l ++ [x]).
Proof. intros A l x N I. rewrite <- (rev_involutive (l ++ [x])). apply NoDup_rev. rewrite rev_app_distr. cbn. constructor; [rewrite <- in_rev; exact I|apply NoDup_rev, N]. Qed.
Lemma once_nodup : forall h, once h -> NoDup (opened_ids h) /\ NoDup (closed_ids h) /\ incl (closed_ids h) (opened_ids h).
Proof.
  intro h. induction h as [|e h IH] using rev_ind; intro O; [cbn; repeat split; [constructor|constructor|intros x []]|].
  destruct (IH (once_prefix h e O)) as (A & B & C). destruct O as [O1 O2]. rewrite opened_app, closed_app.
  destruct e as [i|i|i b|f]; cbn; rewrite ?app_nil_r; try (repeat split; assumption).
  - split; [apply NoDup_snoc; [exact A|]; rewrite ids_open; exact (O1 h [] i eq_refl)|]. split; [exact B|]. intros x I. apply in_or_app. left. apply C, I.
  - destruct (O2 h [] i b eq_refl) as [X Y]. split; [exact A|]. split; [apply NoDup_snoc; [exact B|]; rewrite ids_closed; exact Y|].
    intros x I. apply in_app_or in I. destruct I as [I|[<-|[]]]; [apply C, I|apply ids_open, X].
Qed.
Lemma filter_imp_length : forall A (f g : A -> bool) l, (forall x, f x = true -> g x = true) -> (length (filter f l) <= length (filter g l))%nat.
Proof. intros A f g l H. induction l as [|a l IH]; cbn; [lia|]. destruct (f a) eqn:E; [rewrite (H a E); cbn; lia|]. destruct (g a); cbn; lia. Qed.
Lemma closes_le : forall h n, once h -> (length (closes h n) <= length (opens h n))%nat.
Proof.
  intros h n O. destruct (once_nodup h O) as (A & B & C). unfold closes, opens. apply NoDup_incl_length; [apply NoDup_filter, B|].
  intros x I. apply filter_In in I. destruct I as [I J]. apply filter_In. split; [apply C, I|]. apply Bool.andb_true_iff in J. apply J.
Qed.
(** All readers closed, in numbers. *)
Lemma unused_count : forall h n, once h -> (unused h n <-> length (closes h n) = length (opens h n)).
Proof.
  intros h n O. destruct (once_nodup h O) as (A & B & C). split.
  - intro U. apply Nat.le_antisymm; [apply closes_le; exact O|]. unfold closes, opens. apply NoDup_incl_length; [apply NoDup_filter, A|].
    intros x I. apply filter_In in I. destruct I as [I J]. apply ids_open in I. apply loads_b_spec in J. destruct (U x I J) as [R K].
    apply filter_In. split; [apply ids_closed, K|apply reads_b, R].
  - intros L i I J. assert (In i (closes h n)) as K.
    { eapply (NoDup_length_incl (l := closes h n) (l' := opens h n)); [apply NoDup_filter, B|lia| |].
      - intros x X. apply filter_In in X. destruct X as [X Y]. apply filter_In. split; [apply C, X|]. apply Bool.andb_true_iff in Y. apply Y.
      - apply filter_In. split; [apply ids_open, I|apply loads_b_spec, J]. }
    apply filter_In in K. destruct K as [K1 K2]. split; [apply reads_b, K2|apply ids_closed, K1].
Qed.

Lemma count_set : forall n m z u, count n (dict_set m z u) = if text_eqb n m then z else count n u.
Proof. intros. unfold count. rewrite assoc_dict_set. destruct (text_eqb n m); reflexivity. Qed.
Lemma has_set : forall A n m (z : A) u, has n (dict_set m z u) = text_eqb n m || has n u.
Proof. intros. unfold has. rewrite assoc_dict_set. destruct (text_eqb n m); reflexivity. Qed.
Lemma count_add : forall n m u, count n (add_collection m u) = count n u.
Proof. intros n m u. unfold add_collection. destruct (has m u) eqn:E; [reflexivity|]. rewrite count_set. destruct (text_eqb n m) eqn:Q; [|reflexivity]. apply text_eqb_spec in Q. subst m. unfold has in E. unfold count. destruct (assoc n u); [discriminate|reflexivity]. Qed.
Lemma count_use : forall n m u, count n (use_collection m u) = count n u + (if text_eqb n m then 1 else 0).
Proof. intros n m u. unfold use_collection. rewrite count_set. destruct (text_eqb n m) eqn:Q; [apply text_eqb_spec in Q; subst m; reflexivity|lia]. Qed.
Lemma count_free : forall n m u, 0 <= count m u -> count n (free_collection m u) = count n u.
Proof.
  intros n m u H. unfold free_collection. destruct (assoc m u) as [z|] eqn:E; [|reflexivity]. destruct (0 <? z) eqn:Z; [reflexivity|]. apply Z.ltb_ge in Z.
  unfold count in *. rewrite E in H. rewrite assoc_del. destruct (text_eqb n m) eqn:Q; [|reflexivity]. apply text_eqb_spec in Q. subst m. rewrite E. lia.
Qed.

Lemma close_count : forall n i b st, (forall m, reads i m -> 0 < count m (uses st)) ->
  count n (uses (close_task (tasks i) b st)) = count n (uses st) - (if loads_b n i && negb (self_b n i) then 1 else 0).
Proof.
  intros n i b st P. unfold close_task, loads_b, self_b. unfold Temp_Spec.reads in P. destruct (loads_from (tasks i)) as [m|]; [|cbn; lia].
  destruct (match writes_to (tasks i) with Some m0 => text_eqb m m0 | None => false end) eqn:W.
  { destruct (writes_to (tasks i)) as [w|]; [|discriminate]. apply text_eqb_spec in W. subst w. destruct (text_eqb m n); cbn; lia. }
  assert (Wn : text_eqb m n = true -> (match writes_to (tasks i) with Some m0 => text_eqb m0 n | None => false end) = false).
  { intro E. apply text_eqb_spec in E. subst n. destruct (writes_to (tasks i)); [rewrite text_eqb_sym; exact W|reflexivity]. }
  assert (Pm : 0 < count m (uses st)).
  { apply P. split; [reflexivity|]. intro E. rewrite E, text_eqb_refl in W. discriminate. }
  unfold unuse_collection. destruct (assoc m (uses st)) as [z|] eqn:A; [|unfold count in Pm; rewrite A in Pm; lia].
  assert (Cz : count m (uses st) = z) by (unfold count; rewrite A; reflexivity).
  assert (G : forall u, count n u = count n (dict_set m (z - 1) (uses st)) ->
    count n u = count n (uses st) - (if text_eqb m n && negb (match writes_to (tasks i) with Some m0 => text_eqb m0 n | None => false end) then 1 else 0)).
  { intros u ->. rewrite count_set, (text_eqb_sym n m). destruct (text_eqb m n) eqn:Mn; [rewrite (Wn eq_refl)|]; cbn; [|lia]. apply text_eqb_spec in Mn. subst n. lia. }
  destruct (z - 1 <=? 0); [destruct b|]; cbn [uses]; apply G; try reflexivity. apply count_free. rewrite count_set, text_eqb_refl. lia.
Qed.
Lemma closes_snoc : forall h i b n, length (closes (h ++ [Close i b]) n) = (length (closes h n) + if loads_b n i && negb (self_b n i) then 1 else 0)%nat.
Proof. intros. unfold closes. rewrite closed_app, filter_app, app_length. cbn. destruct (loads_b n i && negb (self_b n i)); reflexivity. Qed.
Lemma opens_snoc : forall h e n, length (opens (h ++ [e]) n) = (length (opens h n) + match e with Open i => if loads_b n i then 1 else 0 | _ => 0 end)%nat.
Proof. intros. unfold opens. rewrite opened_app, filter_app, app_length. destruct e; cbn; try reflexivity. destruct (loads_b n i); reflexivity. Qed.
Lemma closes_other : forall h e n, (forall i b, e <> Close i b) -> closes (h ++ [e]) n = closes h n.
Proof. intros h e n H. unfold closes. rewrite closed_app, filter_app. destruct e; cbn; rewrite ?app_nil_r; try reflexivity. exfalso. apply (H i streaming). reflexivity. Qed.

(** The counter of a table is the number of its open readers. *)
Lemma count_inv : forall h n, once h -> count n (uses (run h)) = Z.of_nat (length (opens h n)) - Z.of_nat (length (closes h n)).
Proof.
  intros h. induction h as [|e h IH] using rev_ind; intros n O; [reflexivity|]. pose proof (once_prefix h e O) as O'. pose proof (fun n => IH n O') as IH'. clear IH.
  rewrite run_snoc, opens_snoc. destruct e as [i|i|i b|f]; cbn [Temp_Model.step].
  - rewrite closes_other by discriminate. unfold open_task. cbn [uses].
    assert (X : forall u, count n (match writes_to (tasks i) with Some m => add_collection m u | None => u end) = count n u) by (intro u; destruct (writes_to (tasks i)); [apply count_add|reflexivity]).
    rewrite X. unfold loads_b. destruct (loads_from (tasks i)) as [m|]; [rewrite count_use, IH', (text_eqb_sym m n); destruct (text_eqb n m); lia|rewrite IH'; lia].
  - rewrite closes_other by discriminate. unfold write_task. destruct (writes_to (tasks i)) as [m|]; [destruct (mem m (store (run h)))|]; cbn [uses]; rewrite IH'; lia.
  - rewrite close_count; [rewrite IH', closes_snoc; destruct (loads_b n i && negb (self_b n i)); lia|].
    intros m R. apply reads_b in R. pose proof (closes_le _ m O) as CL. rewrite closes_snoc, opens_snoc, R in CL. rewrite IH'. lia.
  - rewrite closes_other by discriminate. cbn [clear uses]. rewrite IH'. lia.
Qed.

Lemma in_delete : forall n m s, In n (delete_table m s) <-> In n s /\ n <> m.
Proof.
  intros n m s. unfold delete_table. rewrite filter_In, Bool.negb_true_iff. split; intros [A B]; split; try exact A.
  - intros ->. rewrite text_eqb_refl in B. discriminate.
  - apply text_eqb_neq. congruence.
Qed.
Lemma close_store : forall i b st n, In n (store (close_task (tasks i) b st)) <->
  In n (store st) /\ ~ (reads i n /\ b = false /\ count n (uses st) <= 1).
Proof.
  intros i b st n. unfold close_task, Temp_Spec.reads. destruct (loads_from (tasks i)) as [m|]; [|split; [intro H; split; [exact H|intros [[E _] _]; discriminate]|tauto]].
  destruct (match writes_to (tasks i) with Some m0 => text_eqb m m0 | None => false end) eqn:W.
  { split; [intro H; split; [exact H|]|tauto]. intros [[E N] _]. injection E as ->. destruct (writes_to (tasks i)); [|discriminate]. apply text_eqb_spec in W. subst. contradiction. }
  assert (Wm : writes_to (tasks i) <> Some m) by (intro E; rewrite E, text_eqb_refl in W; discriminate).
  unfold unuse_collection. destruct (assoc m (uses st)) as [z|] eqn:A.
  - destruct (z - 1 <=? 0) eqn:Z1; [destruct b|]; cbn [store].
    + split; [intro H; split; [exact H|intros (_ & E & _); discriminate]|tauto].
    + rewrite in_delete. apply Z.leb_le in Z1. split; intros [H1 H2]; split; try exact H1.
      * intros [[E _] _]. congruence.
      * intros ->. apply H2. split; [split; [reflexivity|exact Wm]|]. split; [reflexivity|]. unfold count. rewrite A. lia.
    + apply Z.leb_gt in Z1. split; [intro H; split; [exact H|]|tauto]. intros [[E _] [_ C]]. injection E as ->. unfold count in C. rewrite A in C. lia.
  - destruct b; cbn [store].
    + split; [intro H; split; [exact H|intros (_ & E & _); discriminate]|tauto].
    + rewrite in_delete. split; intros [H1 H2]; split; try exact H1.
      * intros [[E _] _]. congruence.
      * intros ->. apply H2. split; [split; [reflexivity|exact Wm]|]. split; [reflexivity|]. unfold count. rewrite A. lia.
Qed.

(** A table in use is never removed: whatever the interleaving, a table that disappears before the end of the
    statement was closed by one of its readers, and no reader is left. *)
Theorem table_in_use_kept : forall h e n, once (h ++ [e]) -> exists_after h n -> ~ exists_after (h ++ [e]) n ->
  (exists f, e = End f) \/ ((exists i, e = Close i false /\ reads i n) /\ unused (h ++ [e]) n).
Proof.
  intros h e n O E N. unfold Temp_Spec.exists_after in *. rewrite run_snoc in N. pose proof (once_prefix h e O) as O'. destruct e as [i|i|i b|f]; cbn [Temp_Model.step] in N.
  - contradiction.
  - exfalso. apply N. unfold write_task. destruct (writes_to (tasks i)) as [m|]; [|exact E]. destruct (mem m (store (run h))); [exact E|]. cbn [store]. apply in_or_app. auto.
  - right. rewrite close_store in N. assert (X : reads i n /\ b = false /\ count n (uses (run h)) <= 1).
    { destruct (loads_b n i && negb (self_b n i)) eqn:R; [apply reads_b in R|exfalso; apply N; split; [exact E|]; intros (R' & _); apply reads_b in R'; congruence].
      destruct b; [exfalso; apply N; split; [exact E|]; intros (_ & D & _); discriminate|]. destruct (Z.le_gt_cases (count n (uses (run h))) 1); [auto|].
      exfalso. apply N. split; [exact E|]. intros (_ & _ & D). lia. }
    destruct X as (R & -> & C). split; [exists i; auto|]. apply unused_count; [exact O|]. pose proof (closes_le _ n O) as L. rewrite (count_inv h n O') in C.
    apply reads_b in R. rewrite closes_snoc, opens_snoc, R in *. lia.
  - left. exists f. reflexivity.
Qed.
(** The last reader removes it. *)
Theorem last_reader_removes : forall h i n, once (h ++ [Close i false]) -> reads i n -> unused (h ++ [Close i false]) n -> ~ exists_after (h ++ [Close i false]) n.
Proof.
  intros h i n O R U E. unfold Temp_Spec.exists_after in E. rewrite run_snoc in E. cbn [Temp_Model.step] in E. apply close_store in E. destruct E as [_ E]. apply E.
  split; [exact R|]. split; [reflexivity|]. apply unused_count in U; [|exact O]. rewrite (count_inv h n (once_prefix _ _ O)). apply reads_b in R. rewrite closes_snoc, opens_snoc, R in U. lia.
Qed.

(** ** Nothing is left at the end *)
Lemma has_del : forall A n m (u : list (text * A)), has n (dict_del m u) = negb (text_eqb n m) && has n u.
Proof. intros. unfold has. rewrite assoc_del. destruct (text_eqb n m); reflexivity. Qed.
Lemma close_registered : forall i b st n, has n (uses st) = true -> ~ (reads i n /\ b = false) -> has n (uses (close_task (tasks i) b st)) = true.
Proof.
  intros i b st n H N. unfold close_task. unfold Temp_Spec.reads in N. destruct (loads_from (tasks i)) as [m|]; [|exact H].
  destruct (match writes_to (tasks i) with Some m0 => text_eqb m m0 | None => false end) eqn:W; [exact H|].
  unfold unuse_collection. assert (D : forall z, has n (dict_set m z (uses st)) = true) by (intro z; rewrite has_set, H; apply Bool.orb_true_r).
  destruct (assoc m (uses st)) as [z|].
  - destruct (z - 1 <=? 0); [destruct b|]; cbn [uses]; try apply D. unfold free_collection. destruct (assoc m _) as [y|]; [|apply D]. destruct (0 <? y); [apply D|].
    rewrite has_del, D, Bool.andb_true_r. apply Bool.negb_true_iff, text_eqb_neq. intros ->. apply N. split; [split; [reflexivity|]|reflexivity]. intro E. rewrite E, text_eqb_refl in W. discriminate.
  - destruct b; cbn [uses]; [exact H|]. unfold free_collection. destruct (assoc m (uses st)) as [y|]; [|exact H]. destruct (0 <? y); [exact H|].
    rewrite has_del, H, Bool.andb_true_r. apply Bool.negb_true_iff, text_eqb_neq. intros ->. apply N. split; [split; [reflexivity|]|reflexivity]. intro E. rewrite E, text_eqb_refl in W. discriminate.
Qed.
Lemma open_registers : forall i st n, writes_to (tasks i) = Some n -> has n (uses (open_task (tasks i) st)) = true.
Proof. intros i st n W. unfold open_task. rewrite W. cbn [uses]. generalize (match loads_from (tasks i) with Some n => use_collection n (uses st) | None => uses st end) as u. intro u. unfold add_collection. destruct (has n u) eqn:H; [exact H|]. rewrite has_set, text_eqb_refl. reflexivity. Qed.
Lemma open_keeps : forall i st n, has n (uses st) = true -> has n (uses (open_task (tasks i) st)) = true.
Proof.
  intros i st n H. unfold open_task. cbn [uses]. assert (X : forall u m, has n u = true -> has n (add_collection m u) = true).
  { intros u m Hu. unfold add_collection. destruct (has m u); [exact Hu|]. rewrite has_set, Hu. apply Bool.orb_true_r. }
  destruct (writes_to (tasks i)); [apply X|]; (destruct (loads_from (tasks i)); [unfold use_collection; rewrite has_set, H; apply Bool.orb_true_r|exact H]).
Qed.
Lemma write_uses : forall i st, uses (write_task (tasks i) st) = uses st.
Proof. intros i st. unfold write_task. destruct (writes_to (tasks i)) as [m|]; [destruct (mem m (store st))|]; reflexivity. Qed.
Lemma stays_registered : forall b a i n, writes_to (tasks i) = Some n -> (forall j s, reads j n -> ~ In (Close j s) b) -> has n (uses (run (a ++ Open i :: b))) = true.
Proof.
  intros b a i n W. induction b as [|e b IH] using rev_ind; intro N.
  - rewrite run_snoc. apply open_registers. exact W.
  - replace (a ++ Open i :: b ++ [e]) with ((a ++ Open i :: b) ++ [e]) by (rewrite <- app_assoc; reflexivity). rewrite run_snoc.
    assert (IH' : has n (uses (run (a ++ Open i :: b))) = true) by (apply IH; intros j s R I; apply (N j s R); apply in_or_app; auto).
    destruct e as [k|k|k s|f]; cbn [Temp_Model.step].
    + apply open_keeps, IH'.
    + rewrite write_uses. exact IH'.
    + apply close_registered; [exact IH'|]. intros [R _]. apply (N k s R). apply in_or_app. right. left. reflexivity.
    + exact IH'.
Qed.
Lemma clear_store : forall (f : text -> bool) (ns s : list text) n, In n (fold_left (fun s n => if f n then s else delete_table n s) ns s) <-> In n s /\ ~ (In n ns /\ f n = false).
Proof.
  intros f ns. induction ns as [|m ns IH]; intros s n; cbn [fold_left]; [cbn; tauto|]. rewrite IH. destruct (f m) eqn:Fm.
  - cbn [In]. split; intros [A B]; (split; [exact A|]); intros [I Fn]; apply B; (split; [|exact Fn]); [destruct I as [->|I]; [congruence|exact I]|auto].
  - rewrite in_delete. cbn [In]. split.
    + intros [[A B] C]. split; [exact A|]. intros [[->|I] Fn]; [apply B; reflexivity|apply C; auto].
    + intros [A B]. split; [split; [exact A|]|].
      * intros ->. apply B. auto.
      * intros [I Fn]. apply B. auto.
Qed.
Lemma has_in : forall A n (u : list (text * A)), has n u = true -> In n (map fst u).
Proof.
  intros A n u. unfold has. induction u as [|[k v] u IH]; cbn [assoc map fst]; [discriminate|]. destruct (text_eqb n k) eqn:E; [apply text_eqb_spec in E; subst; left; reflexivity|right; apply IH; assumption].
Qed.
Lemma store_registered : forall h n, once h -> writes_in_time h -> exists_after h n -> has n (uses (run h)) = true.
Proof.
  intro h. induction h as [|e h IH] using rev_ind; intros n O W E; [destruct E|]. pose proof (once_prefix h e O) as O'.
  assert (W' : writes_in_time h). { intros h1 h2 i m Eh. apply (W h1 (h2 ++ [e])). rewrite Eh, <- app_assoc. reflexivity. }
  unfold Temp_Spec.exists_after in *. rewrite run_snoc in *. destruct e as [i|i|i b|f]; cbn [Temp_Model.step] in *.
  - apply open_keeps, IH; assumption.
  - rewrite write_uses. unfold write_task in E. destruct (writes_to (tasks i)) as [m|] eqn:Wi; [|apply IH; assumption].
    destruct (mem m (store (run h))) eqn:M; [apply IH; assumption|]. cbn [store] in E. apply in_app_or in E. destruct E as [E|[<-|[]]]; [apply IH; assumption|].
    destruct (W h [] i m eq_refl Wi) as (a & b & -> & N). apply stays_registered; assumption.
  - apply close_store in E. destruct E as [E N]. pose proof (IH n O' W' E) as H.
    destruct (loads_b n i && negb (self_b n i)) eqn:R.
    2:{ apply close_registered; [exact H|]. intros [R' _]. apply reads_b in R'. congruence. }
    destruct b; [apply close_registered; [exact H|]; intros [_ D]; discriminate|]. apply reads_b in R.
    assert (C : 1 < count n (uses (run h))) by (destruct (Z.le_gt_cases (count n (uses (run h))) 1); [exfalso; apply N; auto|assumption]).
    destruct R as [L Wn]. unfold close_task. rewrite L.
    assert ((match writes_to (tasks i) with Some m => text_eqb n m | None => false end) = false) as ->.
    { destruct (writes_to (tasks i)) as [w|]; [|reflexivity]. apply text_eqb_neq. congruence. }
    unfold unuse_collection. unfold count in C. destruct (assoc n (uses (run h))) as [z|]; [|lia]. assert ((z - 1 <=? 0) = false) as -> by (apply Z.leb_gt; lia).
    cbn [uses]. rewrite has_set, text_eqb_refl. reflexivity.
  - cbn [clear store uses] in *. apply clear_store in E. apply IH; tauto.
Qed.
(** After the end of the statement no temporary table is left, whatever the interleaving and wherever it failed. *)
Theorem nothing_left : forall h n, once h -> writes_in_time h -> ~ exists_after (h ++ [End (fun _ => false)]) n.
Proof.
  intros h n O W E. unfold Temp_Spec.exists_after in E. rewrite run_snoc in E. apply (clear_store (fun _ => false)) in E. destruct E as [E N]. apply N.
  split; [|reflexivity]. apply has_in. apply store_registered; assumption.
Qed.
(** A table written by a task exists right after, until something removes it. *)
Theorem written_exists : forall h i n, writes_to (tasks i) = Some n -> exists_after (h ++ [Write i]) n.
Proof.
  intros h i n W. unfold Temp_Spec.exists_after. rewrite run_snoc. cbn [Temp_Model.step]. unfold write_task. rewrite W. destruct (mem n (store (run h))) eqn:M; [apply mem_In, M|]. cbn. apply in_or_app. right. left. reflexivity.
Qed.
(** In streaming mode the clean-up runs at every pause, and removes tables whose readers have not finished. *)
Theorem pause_removes_refuted : forall h n f, has n (uses (run h)) = true -> f n = false -> ~ exists_after (h ++ [End f]) n.
Proof.
  intros h n f H F E. unfold Temp_Spec.exists_after in E. rewrite run_snoc in E. cbn [Temp_Model.step clear store] in E. apply clear_store in E. destruct E as [E N]. apply N. split; [apply has_in, H|exact F].
Qed.
End Props.

(** A statement with a subquery and a grouped outer query: task 0 writes s, task 1 reads s and writes r, task 2 rewrites r
    in place, task 3 reads r. *)
Definition ex_tasks (i : nat) : task :=
  match i with
  | 0 => mktask None (Some (t "s"))
  | 1 => mktask (Some (t "s")) (Some (t "r"))
  | 2 => mktask (Some (t "r")) (Some (t "r"))
  | _ => mktask (Some (t "r")) None
  end%nat.
Definition ex_h : list ev := [Open 0; Open 1; Write 0; Write 1; Write 0; Close 0 false; Write 1; Close 1 false; Open 3; Close 3 false].
Lemma snoc_cases : forall A (o : A) h h1 x h2, o :: h = h1 ++ x :: h2 -> (h1 = [] /\ o = x /\ h = h2) \/ exists g, h1 = o :: g /\ h = g ++ x :: h2.
Proof. intros A o h [|y h1] x h2 E; cbn in E; injection E as E1 E2; [left; auto|right; exists h1; subst; auto]. Qed.
Example ex_once : once ex_h.
Proof.
  split.
  - intros h1 h2 i E I. unfold ex_h in E.
    repeat (apply snoc_cases in E; destruct E as [(-> & E & _)|(g & -> & E)];
      [try discriminate E; injection E as <-; cbn in I; repeat (destruct I as [I|I]; try discriminate I); try contradiction I|]; rename g into h1). destruct h1; discriminate E.
  - intros h1 h2 i b E. unfold ex_h in E. unfold closed.
    repeat (apply snoc_cases in E; destruct E as [(-> & E & _)|(g & -> & E)];
      [first [discriminate E|injection E as <- <-; split; [cbn; tauto|intros (b & I); cbn in I; repeat (destruct I as [I|I]; try discriminate I); try contradiction I]]|]; rename g into h1). destruct h1; discriminate E.
Qed.
Example ex_in_time : writes_in_time ex_tasks ex_h.
Proof.
  intros h1 h2 i n E W. unfold ex_h in E.
  repeat (apply snoc_cases in E; destruct E as [(-> & E & _)|(g & -> & E)];
    [first [discriminate E|injection E as <-; cbn in W; assert (N : n = t "s" \/ n = t "r") by (injection W as <-; cbn; auto);
     first [exists []; eexists; split; [reflexivity|]|exists [Open 0]; eexists; split; [reflexivity|]];
     intros j s [L Nw] I; cbn in I; repeat (destruct I as [I|I]; try discriminate I); try contradiction; injection I as <- <-; cbn in L; discriminate]|]; rename g into h1).
  destruct h1; discriminate E.
Qed.
Example ex_lives : exists_after ex_tasks (firstn 7 ex_h) (t "s") /\ exists_after ex_tasks (firstn 7 ex_h) (t "r") /\
  ~ exists_after ex_tasks (firstn 8 ex_h) (t "s") /\ exists_after ex_tasks (firstn 8 ex_h) (t "r") /\ ~ exists_after ex_tasks ex_h (t "r").
Proof. unfold exists_after. cbn. intuition discriminate. Qed.
(** The pause: the source table of the outer query is removed although the outer query is still reading. *)
Example ex_pause : ~ exists_after ex_tasks [Open 0; Open 1; Write 0; End (fun _ => false)] (t "s") /\ ~ unused ex_tasks [Open 0; Open 1; Write 0; End (fun _ => false)] (t "s").
Proof.
  split; [unfold exists_after; cbn; tauto|]. intro U. destruct (U 1%nat) as [_ (b & I)]; [cbn; tauto|reflexivity|]. cbn in I. intuition discriminate.
Qed.
Print Assumptions table_in_use_kept.
Print Assumptions last_reader_removes.
Print Assumptions nothing_left.
Print Assumptions written_exists.
Print Assumptions pause_removes_refuted.

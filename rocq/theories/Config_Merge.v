(** C29 (merging) and C30 (sessions). *)
From Verif Require Import Base Agg_Model Json_Proofs Config_Model Config_Spec Config_Props.

(** ** Texts that are not JSON, unknown sections, renaming *)
Section Deviations.
Variable json : text -> option cval.
Variable parse_view : text -> text * cval.
Notation set := (set json parse_view).
(** A database option given as plain text or as a number is silently dropped: json.loads fails and the failure is ignored. *)
Theorem database_plain_value_refuted : forall n f rest v c d, databases_ok c -> databases_unique c -> read c [t "databases"; n] = Some (CDict d) ->
  f <> t "virtual_views" -> f <> t "name" -> v <> CNull -> loads json v = None ->
  exists c', set (t "databases" :: n :: f :: rest) v c = Ok c' /\ read c' [t "databases"; n] = Some (CDict d).
Proof.
  intros n f rest v c d O U R Nv Nn Vn J.
  assert (V : text_eqb f (t "virtual_views") = false) by (apply text_eqb_neq; exact Nv).
  assert (SD : forall d, set_database json parse_view n (f :: rest) v d = Ok (Some d)).
  { intro d'. cbn [set_database]. rewrite V, J. destruct v; try contradiction; reflexivity. }
  destruct (set_databases json parse_view n (f :: rest) v c d d O U (or_introl R) (SD d)) as (c' & E & Rd & _).
  - intros a b E N. rewrite SD in E. injection E as <-. exact N.
  - exists c'. split; assumption.
Qed.
(** A database given by a text that is not JSON loses all its options. *)
Theorem database_bad_json_refuted : forall n s c d, databases_ok c -> databases_unique c -> read c [t "databases"; n] = Some (CDict d) -> json s = None ->
  exists c', set [t "databases"; n] (CStr s) c = Ok c' /\ read c' [t "databases"; n] = Some (CDict [(t "name", CStr n)]).
Proof.
  intros n s c d O U R J.
  assert (SD : forall d, set_database json parse_view n [] (CStr s) d = Ok (Some [(t_name, CStr n)])) by (intro d'; cbn [set_database is_null loads]; rewrite J; reflexivity).
  destruct (set_databases json parse_view n [] (CStr s) c d _ O U (or_introl R) (SD d)) as (c' & E & Rd & _).
  - intros a b E N. rewrite SD in E. injection E as <-. reflexivity.
  - exists c'. split; assumption.
Qed.
(** Keys of two or more parts outside the known sections are ignored. *)
Theorem unknown_section_refuted : forall k n rest v c, ~ In k (t "databases" :: literal_sections ++ json_sections) -> set (k :: n :: rest) v c = Ok c.
Proof.
  intros k n rest v c H. unfold Config_Model.set. assert (text_eqb k (t "databases") = false) as -> by (apply text_eqb_neq; intros ->; apply H; left; reflexivity).
  assert (M : mem k literal_sections || mem k json_sections = false).
  { destruct (mem k literal_sections || mem k json_sections) eqn:E; [|reflexivity]. exfalso. apply H. right. apply in_or_app. rewrite <- !mem_In. apply orb_true_iff, E. }
  rewrite M. reflexivity.
Qed.
(** SET @databases.a.name can make two databases share a name. *)
Theorem database_rename_refuted : exists c c', databases_ok c /\ databases_unique c /\
  Config_Model.set (fun _ => Some (CStr (t "b"))) (fun q => (q, CNull)) [t "databases"; t "a"; t "name"] (CStr (t "'b'")) c = Ok c' /\ ~ databases_unique c'.
Proof.
  exists [(t "databases", CList [CDict [(t "name", CStr (t "a"))]; CDict [(t "name", CStr (t "b"))]])]. eexists. split; [|split; [|split; [reflexivity|]]].
  - eexists. split; [reflexivity|]. repeat constructor; eexists _, _; split; reflexivity.
  - intros l E. cbn in E. injection E as <-. cbn. repeat constructor; cbn; intuition discriminate.
  - intro U. specialize (U _ eq_refl). cbn in U. inversion U as [|x y H _]. apply H. left. reflexivity.
Qed.
End Deviations.

(** ** Merging *)
Lemma dict_update_assoc : forall w d k, NoDup (map fst w) -> assoc k (dict_update d w) = match assoc k w with Some x => Some x | None => assoc k d end.
Proof.
  unfold dict_update. induction w as [|[a b] w IH]; intros d k N; [reflexivity|]. cbn [map fst] in N. inversion N as [|x y Na N']; subst.
  cbn [fold_left fst snd]. rewrite IH by exact N'. rewrite assoc_dict_set. cbn [assoc]. destruct (text_eqb k a) eqn:E; [|reflexivity].
  apply text_eqb_spec in E. subst a. destruct (assoc k w) eqn:A; [|reflexivity]. exfalso. apply Na. clear - A. induction w as [|[a b'] w IH]; [discriminate A|].
  cbn in A. destruct (text_eqb k a) eqn:E; [apply text_eqb_spec in E; left; auto|right; apply IH, A].
Qed.
Lemma merge_key_frame : forall c k x c' k', merge_key c k x = Ok c' -> k' <> k -> assoc k' c' = assoc k' c.
Proof.
  intros c k x c' k' E N. assert (D : forall y, assoc k' (dict_set k y c) = assoc k' c).
  { intro y. rewrite assoc_dict_set. assert (text_eqb k' k = false) as -> by (apply text_eqb_neq; exact N). reflexivity. }
  unfold merge_key in E. destruct (mem k merge_sections).
  { destruct x, (assoc k c) as [[]|]; try (injection E as <-); try reflexivity; apply D. }
  destruct (mem k [t "databases"; t "caches"]).
  { destruct x; try (injection E as <-; reflexivity). destruct (assoc k c) as [[]|]; try (injection E as <-; try reflexivity; apply D).
    destruct (merge_named l l0 []); [|discriminate E]. cbn in E. injection E as <-. apply D. }
  destruct (text_eqb k (t "pipelines")).
  { destruct (assoc k c) as [old|]; [|discriminate E]. destruct (if truthy old then as_pipelines old else Ok []); [|discriminate E]. cbn [bind] in E.
    destruct (if truthy x then as_pipelines x else Ok []); [|discriminate E]. cbn [bind] in E. injection E as <-. apply D. }
  destruct (mem k [t "states"; t "executes"]).
  { destruct (assoc k c) as [[| | | |[|y l]]|]; injection E as <-; apply D. }
  injection E as <-. apply D.
Qed.
Lemma merge_config_at : forall v c c' k, NoDup (map fst v) -> merge_config c v = Ok c' ->
  match assoc k v with
  | None => assoc k c' = assoc k c
  | Some x => exists c1 c2, assoc k c1 = assoc k c /\ merge_key c1 k x = Ok c2 /\ assoc k c' = assoc k c2
  end.
Proof.
  induction v as [|[a b] v IH]; intros c c' k N E; cbn [merge_config] in E; [injection E as <-; reflexivity|].
  destruct (merge_key c a b) as [c1|] eqn:M; [|discriminate E]. cbn [bind] in E. cbn [map fst] in N. inversion N as [|x y Na N']; subst.
  specialize (IH c1 c' k N' E). cbn [assoc]. destruct (text_eqb k a) eqn:Ek.
  - apply text_eqb_spec in Ek. subst a. assert (assoc k v = None) as A.
    { destruct (assoc k v) eqn:A; [|reflexivity]. exfalso. apply Na. clear - A. induction v as [|[a b'] w IH]; [discriminate A|].
      cbn in A. destruct (text_eqb k a) eqn:E; [apply text_eqb_spec in E; left; auto|right; apply IH, A]. }
    rewrite A in IH. exists c, c1. auto.
  - apply text_eqb_neq in Ek. pose proof (merge_key_frame _ _ _ _ k M Ek) as F. destruct (assoc k v).
    + destruct IH as (c2 & c3 & H1 & H2 & H3). exists c2, c3. rewrite <- F. auto.
    + congruence.
Qed.

(** Plain settings: the later configuration wins, settings of only one are kept. *)
Definition plain_key (k : text) : Prop := ~ In k (merge_sections ++ [t "databases"; t "caches"; t "pipelines"; t "states"; t "executes"]).
Theorem merge_plain : forall v c c' k p, NoDup (map fst v) -> merge_config c v = Ok c' -> plain_key k ->
  read c' (k :: p) = match assoc k v with Some x => look x p | None => read c (k :: p) end.
Proof.
  intros v c c' k p N E P. pose proof (merge_config_at v c c' k N E) as M. unfold read. cbn [look]. destruct (assoc k v) as [x|]; [|rewrite M; reflexivity].
  destruct M as (c1 & c2 & H1 & H2 & H3). rewrite H3. unfold plain_key in P.
  assert (F : forall l, (forall k, In k l -> In k (merge_sections ++ [t "databases"; t "caches"; t "pipelines"; t "states"; t "executes"])) -> mem k l = false).
  { intros l S. destruct (mem k l) eqn:X; [|reflexivity]. exfalso. apply P, S, mem_In, X. }
  unfold merge_key in H2. rewrite !F in H2 by (intros z I; cbn in *; tauto).
  assert (text_eqb k (t "pipelines") = false) as Q by (apply text_eqb_neq; intros ->; apply P; cbn; tauto). rewrite Q in H2. injection H2 as <-.
  rewrite assoc_dict_set, text_eqb_refl. reflexivity.
Qed.
(** Sections: entry by entry, the later configuration wins. *)
Theorem merge_section : forall v c c' k d w n, NoDup (map fst v) -> merge_config c v = Ok c' -> In k merge_sections ->
  assoc k c = Some (CDict d) -> assoc k v = Some (CDict w) -> NoDup (map fst w) ->
  read c' [k; n] = match assoc n w with Some x => Some x | None => assoc n d end.
Proof.
  intros v c c' k d w n N E I Hc Hv Nw. pose proof (merge_config_at v c c' k N E) as M. rewrite Hv in M. destruct M as (c1 & c2 & H1 & H2 & H3).
  unfold merge_key in H2. apply mem_In in I. rewrite I, H1, Hc in H2. injection H2 as <-. unfold read. cbn [look]. rewrite H3, assoc_dict_set, text_eqb_refl. cbn [look].
  rewrite dict_update_assoc by exact Nw. destruct (assoc n w); [reflexivity|]. destruct (assoc n d); reflexivity.
Qed.
Theorem merge_section_one_side : forall v c c' k, NoDup (map fst v) -> merge_config c v = Ok c' -> In k merge_sections ->
  (assoc k v = None -> assoc k c' = assoc k c) /\ (forall w, assoc k c = None -> assoc k v = Some (CDict w) -> assoc k c' = Some (CDict w)).
Proof.
  intros v c c' k N E I. pose proof (merge_config_at v c c' k N E) as M. split; [intro Hv; rewrite Hv in M; exact M|].
  intros w Hc Hv. rewrite Hv in M. destruct M as (c1 & c2 & H1 & H2 & H3). unfold merge_key in H2. apply mem_In in I. rewrite I, H1, Hc in H2. injection H2 as <-.
  rewrite H3, assoc_dict_set, text_eqb_refl. reflexivity.
Qed.

(** Databases: record by record; a named record of both has the options of both, the later ones winning. *)
Lemma record_names_cons : forall d n l, assoc (t "name") d = Some (CStr n) -> record_names (CDict d :: l) = n :: record_names l.
Proof. intros d n l H. unfold record_names. cbn [map concat]. rewrite H. reflexivity. Qed.
Lemma has_name_rec : forall d m n, assoc (t "name") d = Some (CStr m) -> has_name n (CDict d) = text_eqb m n.
Proof. intros d m n H. cbn [has_name]. rewrite H. reflexivity. Qed.
Lemma names_find : forall l n, Forall record_ok l -> (In n (record_names l) <-> find (has_name n) l <> None).
Proof.
  induction l as [|e l IH]; intros n F; [cbn; split; [intros []|congruence]|]. inversion F as [|x y R F']; subst. destruct R as (d & m & -> & H).
  rewrite (record_names_cons d m l H). cbn [find]. rewrite (has_name_rec d m n H). destruct (text_eqb m n) eqn:E.
  - apply text_eqb_spec in E. subst. split; [discriminate|left; reflexivity].
  - apply text_eqb_neq in E. rewrite <- IH by exact F'. cbn. tauto.
Qed.
Lemma update_last_spec : forall n w l, Forall record_ok l -> NoDup (record_names l) -> NoDup (map fst w) -> assoc (t "name") w = Some (CStr n) ->
  match find (has_name n) l with
  | None => update_last n w l = None
  | Some e => exists d l', e = CDict d /\ update_last n w l = Some l' /\ Forall record_ok l' /\ record_names l' = record_names l /\
      forall m, find (has_name m) l' = if text_eqb m n then Some (CDict (dict_update d w)) else find (has_name m) l
  end.
Proof.
  intros n w. induction l as [|e l IH]; intros F ND Nw Hn; [reflexivity|]. inversion F as [|x y R F']; subst. destruct R as (d & m0 & -> & H).
  rewrite (record_names_cons d m0 l H) in ND. inversion ND as [|x y Nin ND']; subst. specialize (IH F' ND' Nw Hn). cbn [find]. rewrite (has_name_rec d m0 n H).
  destruct (text_eqb m0 n) eqn:E.
  - apply text_eqb_spec in E. subst m0. assert (find (has_name n) l = None) as FN by (destruct (find (has_name n) l) eqn:Q; [|reflexivity]; exfalso; apply Nin, names_find; [exact F'|congruence]).
    rewrite FN in IH. exists d. cbn [update_last]. rewrite IH. cbn [named]. unfold t_name. rewrite H, text_eqb_refl. eexists. split; [reflexivity|]. split; [reflexivity|].
    assert (Hu : assoc (t "name") (dict_update d w) = Some (CStr n)) by (rewrite dict_update_assoc by exact Nw; rewrite Hn; reflexivity).
    split; [constructor; [exists (dict_update d w), n; split; [reflexivity|exact Hu]|exact F']|]. split; [rewrite (record_names_cons _ n l Hu), (record_names_cons d n l H); reflexivity|].
    intro m. cbn [find]. rewrite (has_name_rec _ n m Hu), (has_name_rec d n m H). rewrite (text_eqb_sym n m). destruct (text_eqb m n) eqn:E; reflexivity.
  - cbn [update_last]. destruct (find (has_name n) l) as [e|].
    + destruct IH as (d' & l' & -> & U & R' & RN & FF). rewrite U. exists d'. eexists. split; [reflexivity|]. split; [reflexivity|].
      split; [constructor; [exists d, m0; split; [reflexivity|exact H]|exact R']|]. split; [rewrite (record_names_cons d m0 l' H), (record_names_cons d m0 l H); congruence|].
      intro m. cbn [find]. rewrite (has_name_rec d m0 m H). destruct (text_eqb m0 m) eqn:Q; [|apply FF]. apply text_eqb_spec in Q. subst m0. rewrite E. reflexivity.
    + rewrite IH. cbn [named]. unfold t_name. rewrite H, E. reflexivity.
Qed.
(** The record of a merged list. *)
Definition merged_record (base v : option cval) : option cval :=
  match base, v with
  | Some (CDict d), Some (CDict w) => Some (CDict (dict_update d w))
  | None, x => x
  | x, None => x
  | x, _ => x
  end.
Lemma find_app_rec : forall n a b, find (has_name n) (a ++ b) = match find (has_name n) a with Some e => Some e | None => find (has_name n) b end.
Proof. intros n. induction a as [|e a IH]; intro b; [reflexivity|]. cbn [app find]. destruct (has_name n e); [reflexivity|apply IH]. Qed.
Lemma record_names_app : forall a b, record_names (a ++ b) = record_names a ++ record_names b.
Proof. intros a b. unfold record_names. rewrite map_app, concat_app. reflexivity. Qed.
Lemma merge_named_spec : forall v base added, Forall record_ok v -> Forall record_ok base -> Forall record_ok added ->
  NoDup (record_names (base ++ added)) -> NoDup (record_names v) -> (forall n, In n (record_names v) -> ~ In n (record_names added)) ->
  Forall (fun e => match e with CDict w => NoDup (map fst w) | _ => True end) v ->
  exists l, merge_named v base added = Ok l /\ Forall record_ok l /\ NoDup (record_names l) /\
    (forall n, In n (record_names l) <-> In n (record_names (base ++ added)) \/ In n (record_names v)) /\
    forall n, find (has_name n) l = merged_record (find (has_name n) (base ++ added)) (find (has_name n) v).
Proof.
  induction v as [|e v IH]; intros base added Fv Fb Fa ND NDv DJ K.
  - exists (base ++ added). split; [reflexivity|]. split; [apply Forall_app; auto|]. split; [exact ND|]. split; [cbn; tauto|].
    intro n. cbn [find]. destruct (find (has_name n) (base ++ added)) as [[]|]; reflexivity.
  - inversion Fv as [|x y R Fv']; subst. destruct R as (w & m & -> & H). inversion K as [|x y Kw K']; subst.
    rewrite (record_names_cons w m v H) in NDv. inversion NDv as [|x y Nin NDv']; subst.
    assert (DJm : ~ In m (record_names added)) by (apply DJ; rewrite (record_names_cons w m v H); left; reflexivity).
    cbn [merge_named]. unfold t_name. rewrite H. rewrite record_names_app in ND.
    assert (NDb : NoDup (record_names base)) by (clear - ND; induction (record_names base) as [|x l IHl]; [constructor|cbn in ND; inversion ND as [|a b N1 N2]; subst; constructor; [intro I; apply N1, in_or_app; left; exact I|apply IHl, N2]]).
    pose proof (update_last_spec m w base Fb NDb Kw H) as U. destruct (find (has_name m) base) as [e|] eqn:Fm.
    + destruct U as (d & base' & -> & U & Fb' & RN & FF). rewrite U.
      destruct (IH base' added Fv' Fb' Fa) as (l & E & Fl & NDl & Nl & FL); [rewrite record_names_app, RN; exact ND|exact NDv'| |exact K'|].
      { intros n I. apply DJ. rewrite (record_names_cons w m v H). right. exact I. }
      exists l. split; [exact E|]. split; [exact Fl|]. split; [exact NDl|]. split.
      * intro n. rewrite Nl. rewrite !record_names_app, RN, (record_names_cons w m v H). cbn [In]. split; [tauto|]. intros [X|[X|X]]; [tauto| |tauto].
        subst n. left. apply in_or_app. left. apply names_find; [exact Fb|congruence].
      * intro n. rewrite FL, !find_app_rec, FF. cbn [find]. rewrite (has_name_rec w m n H), (text_eqb_sym m n). destruct (text_eqb n m) eqn:En; [|reflexivity].
        apply text_eqb_spec in En. subst n. rewrite Fm.
        assert (find (has_name m) v = None) as -> by (destruct (find (has_name m) v) eqn:Q; [|reflexivity]; exfalso; apply Nin, names_find; [exact Fv'|congruence]). reflexivity.
    + rewrite U. assert (Nb : ~ In m (record_names base)) by (rewrite names_find by exact Fb; congruence).
      destruct (IH base (added ++ [CDict w]) Fv' Fb) as (l & E & Fl & NDl & Nl & FL).
      * apply Forall_app. split; [exact Fa|]. constructor; [exists w, m; split; [reflexivity|exact H]|constructor].
      * rewrite !record_names_app, (record_names_cons w m [] H), app_assoc. rewrite <- (rev_involutive (_ ++ [m])). apply NoDup_rev. rewrite rev_app_distr. cbn [rev app].
        constructor; [|apply NoDup_rev, ND]. intro I. apply in_rev in I. apply in_app_or in I. tauto.
      * exact NDv'.
      * intros n I. rewrite record_names_app, (record_names_cons w m [] H). intro J. apply in_app_or in J. destruct J as [J|[J|[]]].
        -- apply (DJ n); [rewrite (record_names_cons w m v H); right; exact I|exact J].
        -- subst n. contradiction.
      * exact K'.
      * exists l. split; [exact E|]. split; [exact Fl|]. split; [exact NDl|]. split.
        -- intro n. rewrite Nl. rewrite !record_names_app, (record_names_cons w m [] H), (record_names_cons w m v H), !in_app_iff. cbn. tauto.
        -- intro n. rewrite FL. rewrite app_assoc, !find_app_rec. cbn [find]. rewrite (has_name_rec w m n H). destruct (text_eqb m n) eqn:En.
           ++ apply text_eqb_spec in En. subst n. rewrite Fm.
              assert (find (has_name m) added = None) as -> by (destruct (find (has_name m) added) eqn:Q; [|reflexivity]; exfalso; apply DJm, names_find; [exact Fa|congruence]).
              assert (find (has_name m) v = None) as -> by (destruct (find (has_name m) v) eqn:Q; [|reflexivity]; exfalso; apply Nin, names_find; [exact Fv'|congruence]). reflexivity.
           ++ destruct (find (has_name n) base); [reflexivity|]. destruct (find (has_name n) added); reflexivity.
Qed.
Theorem merge_databases : forall v c c' l w, NoDup (map fst v) -> merge_config c v = Ok c' ->
  assoc (t "databases") c = Some (CList l) -> assoc (t "databases") v = Some (CList w) -> Forall record_ok l -> Forall record_ok w ->
  NoDup (record_names l) -> NoDup (record_names w) -> Forall (fun e => match e with CDict w => NoDup (map fst w) | _ => True end) w ->
  databases_ok c' /\ databases_unique c' /\
  forall n f, read c' [t "databases"; n; f] = match read v [t "databases"; n; f] with Some x => Some x | None => read c [t "databases"; n; f] end.
Proof.
  intros v c c' l w N E Hc Hv Fl Fw ND NDw K. pose proof (merge_config_at v c c' (t "databases") N E) as M. rewrite Hv in M. destruct M as (c1 & c2 & H1 & H2 & H3).
  unfold merge_key in H2. change (mem (t "databases") merge_sections) with false in H2. change (mem (t "databases") [t "databases"; t "caches"]) with true in H2. cbn iota in H2.
  rewrite H1, Hc in H2. destruct (merge_named_spec w l [] Fw Fl (Forall_nil _)) as (l' & E' & F' & N' & _ & FF); [rewrite app_nil_r; exact ND|exact NDw|intros n _ []|exact K|].
  rewrite E' in H2. cbn [bind] in H2. injection H2 as <-. assert (A : assoc (t "databases") c' = Some (CList l')) by (rewrite H3, assoc_dict_set, text_eqb_refl; reflexivity).
  split; [exists l'; auto|]. split; [intros l2 E2; rewrite A in E2; injection E2 as <-; exact N'|].
  intros n f. unfold read. cbn [look]. rewrite A, Hc, Hv. cbn [look]. rewrite FF, app_nil_r. destruct (find (has_name n) l) as [e|] eqn:Q1.
  - destruct (find_has_name_in n l e Q1) as (d & -> & _). destruct (find (has_name n) w) as [e'|] eqn:Q2.
    + destruct (find_has_name_in n w e' Q2) as (d' & -> & _). cbn [merged_record look]. apply find_some in Q2. destruct Q2 as [Q2 _].
      rewrite Forall_forall in K. specialize (K _ Q2). cbn in K. rewrite dict_update_assoc by exact K. destruct (assoc f d'); [reflexivity|]. destruct (assoc f d); reflexivity.
    + cbn [merged_record look]. destruct (assoc f d); reflexivity.
  - cbn [merged_record]. destruct (find (has_name n) w) as [e'|]; [|reflexivity].
    destruct e' as [| | |d'|l2]; try reflexivity; [destruct (assoc f d')|destruct (find (has_name f) l2)]; reflexivity.
Qed.

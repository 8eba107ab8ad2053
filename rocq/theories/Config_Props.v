(** C29: configuration updates and merging. *)
From Verif Require Import Base Agg_Model Json_Proofs Config_Model Config_Spec.

Lemma assoc_del : forall A k k' (d : list (text * A)), assoc k (dict_del k' d) = if text_eqb k k' then None else assoc k d.
Proof.
  intros A k k' d. unfold dict_del. induction d as [|[a b] d IH]; cbn [filter assoc fst]; [destruct (text_eqb k k'); reflexivity|].
  destruct (text_eqb k' a) eqn:E; cbn [negb]; cbn iota.
  - apply text_eqb_spec in E. subst a. rewrite IH. destruct (text_eqb k k'); reflexivity.
  - cbn [assoc]. rewrite IH. destruct (text_eqb k a) eqn:Ea; [|reflexivity]. apply text_eqb_spec in Ea. subst a.
    rewrite text_eqb_sym, E. reflexivity.
Qed.
Lemma mem_In : forall k l, mem k l = true <-> In k l.
Proof.
  intros k l. unfold mem. rewrite existsb_exists. split.
  - intros (x & I & E). apply text_eqb_spec in E. subst. exact I.
  - intro I. exists k. split; [exact I|apply text_eqb_refl].
Qed.

Section Props.
Variable json : text -> option cval.
Variable parse_view : text -> text * cval.
Notation set := (set json parse_view).
Notation loads := (loads json).

(** ** One part: SET @config.key = value *)
Theorem set_top : forall k v c, v <> CNull -> exists c', set [k] v c = Ok c' /\ read c' [k] = Some v /\
  forall p, apart [k] p -> read c' p = read c p.
Proof.
  intros k v c H. exists (dict_set k v c). split; [destruct v; try contradiction; reflexivity|]. unfold read. cbn [look].
  split; [rewrite assoc_dict_set, text_eqb_refl; reflexivity|].
  intros [|k' p] [A1 A2]; [exfalso; apply (A2 [k]); reflexivity|]. cbn [look]. rewrite assoc_dict_set.
  assert (text_eqb k' k = false) as -> by (apply text_eqb_neq; intros ->; apply (A1 p); reflexivity). reflexivity.
Qed.
Theorem set_top_null : forall k c, exists c', set [k] CNull c = Ok c' /\ (forall p, read c' (k :: p) = None) /\
  forall p, apart [k] p -> read c' p = read c p.
Proof.
  intros k c. exists (dict_del k c). split; [reflexivity|]. unfold read. split.
  - intro p. cbn [look]. rewrite assoc_del, text_eqb_refl. reflexivity.
  - intros [|k' p] [A1 A2]; [exfalso; apply (A2 [k]); reflexivity|]. cbn [look]. rewrite assoc_del.
    assert (text_eqb k' k = false) as -> by (apply text_eqb_neq; intros ->; apply (A1 p); reflexivity). reflexivity.
Qed.

(** ** Sections: imports, sources (the value as it is), defines, variables, options, caches (JSON, or as it is) *)
Definition section_value (k : text) (v w : cval) : Prop :=
  (In k literal_sections /\ w = v) \/ (In k json_sections /\ match loads v with Some x => w = x | None => w = v end).
Definition section_ok (k : text) (c : conf) : Prop := assoc k c = None \/ exists d, assoc k c = Some (CDict d).
Lemma section_not_databases : forall k, In k literal_sections \/ In k json_sections -> text_eqb k (t "databases") = false.
Proof. intros k H. apply text_eqb_neq. intros ->. cbn in H. intuition discriminate. Qed.
Lemma mem_literal : forall k, In k literal_sections -> mem k json_sections = false.
Proof. intros k H. destruct (mem k json_sections) eqn:E; [|reflexivity]. apply mem_In in E. cbn in H, E. intuition (subst; discriminate). Qed.

Lemma read_section_other : forall k n c d d' p, (assoc k c = Some (CDict d) \/ assoc k c = None /\ d = []) ->
  (forall m, m <> n -> assoc m d' = assoc m d) -> apart [k; n] p -> p <> [k] -> read (dict_set k (CDict d') c) p = read c p.
Proof.
  intros k n c d d' p S F [A1 A2] Nk. destruct p as [|k' p]; [exfalso; apply (A2 [k; n]); reflexivity|]. unfold read. cbn [look]. rewrite assoc_dict_set.
  destruct (text_eqb k' k) eqn:E; [|reflexivity]. apply text_eqb_spec in E. subst k'. destruct p as [|m p]; [exfalso; apply Nk; reflexivity|].
  assert (Nm : m <> n) by (intros ->; apply (A1 p); reflexivity). cbn [look]. rewrite F by exact Nm.
  destruct S as [S|[S ->]]; rewrite S; reflexivity.
Qed.
Theorem set_section : forall k n rest v w c, v <> CNull -> section_value k v w -> section_ok k c ->
  exists c', set (k :: n :: rest) v c = Ok c' /\ read c' [k; n] = Some w /\ forall p, apart [k; n] p -> p <> [k] -> read c' p = read c p.
Proof.
  intros k n rest v w c Nv W S.
  assert (IN : In k literal_sections \/ In k json_sections) by (destruct W as [[W _]|[W _]]; auto).
  assert (ME : mem k literal_sections || mem k json_sections = true) by (apply orb_true_iff; rewrite !mem_In; exact IN).
  assert (NN : is_null v = false) by (destruct v; try contradiction; reflexivity).
  assert (VW : (if mem k json_sections then match loads v with Some w => w | None => v end else v) = w).
  { destruct W as [[W ->]|[W Hw]]; [rewrite (mem_literal k W); reflexivity|]. apply mem_In in W. rewrite W. destruct (loads v); congruence. }
  unfold Config_Model.set. rewrite (section_not_databases k IN), ME, NN, VW.
  destruct S as [S|[d S]]; rewrite S; eexists; (split; [reflexivity|]); (split; [unfold read; cbn [look]; rewrite assoc_dict_set, text_eqb_refl; cbn [look]|]).
  - cbn [assoc]. rewrite text_eqb_refl. reflexivity.
  - intros p A Nk. apply (read_section_other k n c []); auto. intros m Nm. cbn [assoc].
    assert (text_eqb m n = false) as -> by (apply text_eqb_neq; exact Nm). reflexivity.
  - rewrite assoc_dict_set, text_eqb_refl. reflexivity.
  - intros p A Nk. apply (read_section_other k n c d); auto. intros m Nm. rewrite assoc_dict_set.
    assert (text_eqb m n = false) as -> by (apply text_eqb_neq; exact Nm). reflexivity.
Qed.
Theorem set_section_null : forall k n rest c, In k literal_sections \/ In k json_sections -> section_ok k c ->
  exists c', set (k :: n :: rest) CNull c = Ok c' /\ (forall p, read c' (k :: n :: p) = None) /\
    forall p, apart [k; n] p -> p <> [k] -> read c' p = read c p.
Proof.
  intros k n rest c IN S. unfold Config_Model.set. rewrite (section_not_databases k IN).
  assert (mem k literal_sections || mem k json_sections = true) as -> by (apply orb_true_iff; rewrite !mem_In; exact IN). cbn [is_null].
  destruct S as [S|[d S]]; rewrite S; eexists; (split; [reflexivity|]); (split; [intro p; unfold read; cbn [look]; rewrite assoc_dict_set, text_eqb_refl; cbn [look]|]).
  - reflexivity.
  - intros p A Nk. apply (read_section_other k n c []); auto.
  - rewrite assoc_del, text_eqb_refl. reflexivity.
  - intros p A Nk. apply (read_section_other k n c d); auto. intros m Nm. rewrite assoc_del.
    assert (text_eqb m n = false) as -> by (apply text_eqb_neq; exact Nm). reflexivity.
Qed.

(** ** Databases *)
Lemma named_ok : forall n e, record_ok e -> named n e = Ok (has_name n e).
Proof. intros n e (d & m & -> & H). cbn [named has_name]. unfold t_name. rewrite H. reflexivity. Qed.
Lemma find_has_name_in : forall n l e, find (has_name n) l = Some e -> exists d, e = CDict d /\ assoc t_name d = Some (CStr n).
Proof.
  intros n l e H. apply find_some in H. destruct H as [_ H]. destruct e as [| | |d|]; try discriminate H. cbn [has_name] in H. exists d. split; [reflexivity|].
  unfold t_name. destruct (assoc (t "name") d) as [[|s| | |]|]; try discriminate H. apply text_eqb_spec in H. congruence.
Qed.
(** What [update_named] does to every look-up by name, when the updated record keeps its name. *)
Lemma update_named_spec : forall n fresh f l, Forall record_ok l ->
  (forall d d', f d = Ok (Some d') -> assoc t_name d = Some (CStr n) -> assoc t_name d' = Some (CStr n)) -> assoc t_name fresh = Some (CStr n) ->
  forall d0, (find (has_name n) l = Some (CDict d0) \/ find (has_name n) l = None /\ d0 = fresh) -> forall d1, f d0 = Ok (Some d1) ->
  exists l', update_named n fresh f l = Ok l' /\ Forall record_ok l' /\ find (has_name n) l' = Some (CDict d1) /\
    (forall m, m <> n -> find (has_name m) l' = find (has_name m) l) /\
    record_names l' = match find (has_name n) l with Some _ => record_names l | None => record_names l ++ [n] end.
Proof.
  intros n fresh f l F KN FN d0 D d1 E. revert F D. induction l as [|e l IH]; intros F D.
  - destruct D as [D|[_ ->]]; [discriminate D|]. cbn [update_named]. rewrite E. cbn [bind].
    assert (Nd : assoc (t "name") d1 = Some (CStr n)) by (apply (KN fresh d1 E FN)). eexists. split; [reflexivity|].
    split; [constructor; [exists d1, n; split; [reflexivity|exact Nd]|constructor]|].
    split; [cbn [find has_name]; rewrite Nd, text_eqb_refl; reflexivity|]. split; [|unfold record_names; cbn [map concat]; rewrite Nd; reflexivity].
    intros m Nm. cbn [find has_name]. rewrite Nd. assert (text_eqb n m = false) as -> by (apply text_eqb_neq; congruence). reflexivity.
  - inversion F as [|x y Re F']; subst. cbn [update_named]. rewrite named_ok by exact Re. cbn [bind]. cbn [find] in *. destruct (has_name n e) eqn:He.
    + destruct D as [D|[D _]]; [|discriminate D]. injection D as ->. rewrite E. cbn [bind].
      assert (N0 : assoc t_name d0 = Some (CStr n)).
      { cbn [has_name] in He. unfold t_name. destruct (assoc (t "name") d0) as [[|s| | |]|]; try discriminate He. apply text_eqb_spec in He. congruence. }
      assert (Nd : assoc (t "name") d1 = Some (CStr n)) by (apply (KN d0 d1 E N0)). eexists. split; [reflexivity|].
      split; [constructor; [exists d1, n; split; [reflexivity|exact Nd]|exact F']|].
      split; [cbn [find has_name]; rewrite Nd, text_eqb_refl; reflexivity|]. unfold t_name in N0. split; [|unfold record_names; cbn [map concat]; rewrite Nd, N0; reflexivity].
      intros m Nm. cbn [find has_name]. rewrite Nd, N0. assert (text_eqb n m = false) as -> by (apply text_eqb_neq; congruence). reflexivity.
    + destruct (IH F' D) as (l' & U & R & Fn & Fo & RN). rewrite U. cbn [bind]. eexists. split; [reflexivity|]. split; [constructor; assumption|].
      cbn [find]. rewrite He. split; [exact Fn|]. split.
      * intros m Nm. destruct (has_name m e); [reflexivity|apply Fo, Nm].
      * unfold record_names in *. cbn [map concat]. rewrite RN. destruct (find (has_name n) l); [reflexivity|rewrite app_assoc; reflexivity].
Qed.
Lemma update_named_remove : forall n fresh f l, Forall record_ok l -> NoDup (record_names l) ->
  (forall d, f d = Ok None) ->
  exists l', update_named n fresh f l = Ok l' /\ Forall record_ok l' /\ find (has_name n) l' = None /\
    (forall m, m <> n -> find (has_name m) l' = find (has_name m) l) /\ NoDup (record_names l') /\ (forall m, In m (record_names l') -> In m (record_names l)).
Proof.
  intros n fresh f l F ND E. induction l as [|e l IH].
  - cbn [update_named]. rewrite E. cbn [bind]. eexists. split; [reflexivity|]. repeat split; auto.
  - inversion F as [|x y Re F']; subst. cbn [update_named]. rewrite named_ok by exact Re. cbn [bind].
    destruct Re as (d & m0 & -> & Nm0). unfold record_names in ND. cbn [map concat] in ND. rewrite Nm0 in ND. cbn [app] in ND.
    inversion ND as [|x y Nin ND']; subst. cbn [has_name]. rewrite Nm0. destruct (text_eqb m0 n) eqn:He.
    + apply text_eqb_spec in He. subst m0. rewrite E. cbn [bind]. eexists. split; [reflexivity|]. split; [exact F'|]. split.
      * destruct (find (has_name n) l) as [e|] eqn:Fe; [|reflexivity]. exfalso. apply Nin. destruct (find_has_name_in _ _ _ Fe) as (d' & -> & Nd').
        apply find_some in Fe. destruct Fe as [I _]. apply in_concat. exists [n]. split; [|left; reflexivity]. apply in_map_iff. exists (CDict d').
        split; [|exact I]. unfold t_name in Nd'. cbn in Nd'. rewrite Nd'. reflexivity.
      * split; [|split; [exact ND'|intros m I; unfold record_names; cbn [map concat]; rewrite Nm0; right; exact I]].
        intros m Nm. cbn [find has_name]. rewrite Nm0. assert (text_eqb n m = false) as -> by (apply text_eqb_neq; congruence). reflexivity.
    + destruct (IH F' ND') as (l' & U & R & Fn & Fo & N' & Sub). rewrite U. cbn [bind]. eexists. split; [reflexivity|].
      split; [constructor; [exists d, m0; split; [reflexivity|exact Nm0]|exact R]|]. cbn [find has_name]. rewrite Nm0, He. split; [exact Fn|]. split.
      * intros m Nm. destruct (text_eqb m0 m); [reflexivity|apply Fo, Nm].
      * unfold record_names in *. cbn [map concat]. rewrite Nm0. cbn [app]. split.
        -- constructor; [|exact N']. intro I. apply Nin, Sub, I.
        -- intros m [I|I]; [left; exact I|right; apply Sub, I].
Qed.

(** The update of one database, seen from outside. *)
Lemma set_databases : forall n rest v c d0 d1, databases_ok c -> databases_unique c ->
  (read c [t "databases"; n] = Some (CDict d0) \/ read c [t "databases"; n] = None /\ d0 = [(t_name, CStr n)]) ->
  set_database json parse_view n rest v d0 = Ok (Some d1) ->
  (forall d d', set_database json parse_view n rest v d = Ok (Some d') -> assoc t_name d = Some (CStr n) -> assoc t_name d' = Some (CStr n)) ->
  exists c', set (t "databases" :: n :: rest) v c = Ok c' /\ read c' [t "databases"; n] = Some (CDict d1) /\ databases_ok c' /\ databases_unique c' /\
    forall p, apart [t "databases"; n] p -> p <> [t "databases"] -> read c' p = read c p.
Proof.
  intros n rest v c d0 d1 (l & L & F) U D E KN. unfold Config_Model.set. rewrite text_eqb_refl, L.
  assert (D' : find (has_name n) l = Some (CDict d0) \/ find (has_name n) l = None /\ d0 = [(t_name, CStr n)]).
  { unfold read in D. cbn [look] in D. rewrite L in D. cbn [look] in D. destruct (find (has_name n) l) as [e|] eqn:Fe; [|destruct D as [D|D]; [discriminate D|right; split; [reflexivity|apply D]]].
    left. destruct D as [D|[D _]]; congruence. }
  destruct (update_named_spec n [(t_name, CStr n)] (set_database json parse_view n rest v) l F KN) with (d0 := d0) (d1 := d1) as (l' & Up & R & Fn & Fo & RN);
    [reflexivity|exact D'|exact E|]. rewrite Up. cbn [bind]. eexists. split; [reflexivity|]. unfold read. cbn [look]. rewrite assoc_dict_set, text_eqb_refl. cbn [look]. rewrite Fn.
  split; [reflexivity|]. split; [exists l'; split; [rewrite assoc_dict_set, text_eqb_refl; reflexivity|exact R]|]. split.
  - intros l2 E2. rewrite assoc_dict_set, text_eqb_refl in E2. injection E2 as <-. rewrite RN. specialize (U l L).
    destruct (find (has_name n) l) eqn:Fe; [exact U|]. rewrite <- rev_involutive. apply NoDup_rev. rewrite rev_app_distr. cbn [rev app]. constructor; [|apply NoDup_rev, U].
    intro I. apply in_rev in I. unfold record_names in I. apply in_concat in I. destruct I as (ns & I & In0). apply in_map_iff in I. destruct I as (e & <- & I).
    pose proof (find_none _ _ Fe e I) as Hn. destruct e as [| | |d|]; try destruct In0. cbn [has_name] in Hn. destruct (assoc (t "name") d) as [[|s| | |]|]; try destruct In0; subst;
      [rewrite text_eqb_refl in Hn; discriminate Hn|contradiction].
  - intros p [A1 A2] Nk. destruct p as [|k' p]; [exfalso; apply (A2 [t "databases"; n]); reflexivity|]. cbn [look]. rewrite assoc_dict_set.
    destruct (text_eqb k' (t "databases")) eqn:Ek; [|reflexivity]. apply text_eqb_spec in Ek. subst k'. rewrite L. destruct p as [|m p]; [exfalso; apply Nk; reflexivity|].
    cbn [look]. rewrite Fo; [reflexivity|]. intros ->. apply (A1 p). reflexivity.
Qed.
(** SET @databases.<n>.<field> = '<json>' *)
Theorem set_database_field : forall n f rest s w c, databases_ok c -> databases_unique c -> f <> t "virtual_views" -> f <> t "name" -> json s = Some w ->
  exists c', set (t "databases" :: n :: f :: rest) (CStr s) c = Ok c' /\ read c' [t "databases"; n; f] = Some w /\ databases_ok c' /\ databases_unique c' /\
    forall p, apart [t "databases"; n; f] p -> p <> [t "databases"] -> p <> [t "databases"; n] ->
      (forall q, p = t "databases" :: n :: q -> read c [t "databases"; n] <> None) -> read c' p = read c p.
Proof.
  intros n f rest s w c Ok0 U Nv Nn J.
  assert (V : text_eqb f (t "virtual_views") = false) by (apply text_eqb_neq; exact Nv).
  assert (SD : forall d, set_database json parse_view n (f :: rest) (CStr s) d = Ok (Some (dict_set f w d))) by (intro d; cbn [set_database]; rewrite V; cbn [is_null Config_Model.loads]; rewrite J; reflexivity).
  assert (KN : forall d d', set_database json parse_view n (f :: rest) (CStr s) d = Ok (Some d') -> assoc t_name d = Some (CStr n) -> assoc t_name d' = Some (CStr n)).
  { intros d d' E N. rewrite SD in E. injection E as <-. rewrite assoc_dict_set. assert (text_eqb t_name f = false) as -> by (apply text_eqb_neq; unfold t_name; congruence). exact N. }
  assert (X : exists d0, (read c [t "databases"; n] = Some (CDict d0) \/ read c [t "databases"; n] = None /\ d0 = [(t_name, CStr n)])).
  { destruct (read c [t "databases"; n]) as [e|] eqn:E; [|exists [(t_name, CStr n)]; right; auto]. destruct Ok0 as (l & L & F).
    unfold read in E. cbn [look] in E. rewrite L in E. cbn [look] in E. destruct (find (has_name n) l) as [e'|] eqn:Fe; [|discriminate E]. injection E as ->.
    destruct (find_has_name_in _ _ _ Fe) as (d & -> & _). exists d. left. reflexivity. }
  destruct X as [d0 D0]. destruct (set_databases n (f :: rest) (CStr s) c d0 (dict_set f w d0) Ok0 U D0 (SD d0) KN) as (c' & E & R & O' & U' & FR).
  exists c'. split; [exact E|].
  assert (RX : forall q, read c' (t "databases" :: n :: q) = look (CDict (dict_set f w d0)) q).
  { intro q. unfold read in *. cbn [look] in *. destruct (assoc (t "databases") c') as [x|]; [|discriminate R]. destruct x as [| | |d|l]; try discriminate R.
    - destruct (assoc n d) as [y|]; [|discriminate R]. cbn [look] in R. congruence.
    - destruct (find (has_name n) l) as [y|]; [|discriminate R]. cbn [look] in R. congruence. }
  split; [rewrite RX; cbn [look]; rewrite assoc_dict_set, text_eqb_refl; reflexivity|]. split; [exact O'|]. split; [exact U'|].
  intros p A N1 N2 EX. destruct (list_eq_dec text_eq_dec (firstn 2 p) [t "databases"; n]) as [Ep|Ep].
  - destruct p as [|a [|b q]]; try discriminate Ep. cbn [firstn] in Ep. assert (a = t "databases") as -> by congruence. assert (b = n) as -> by congruence. clear Ep. rewrite RX. specialize (EX q eq_refl).
    destruct D0 as [D0|[D0 _]]; [|congruence].
    assert (RC : read c (t "databases" :: n :: q) = look (CDict d0) q).
    { unfold read in *. cbn [look] in *. destruct (assoc (t "databases") c) as [x|]; [|discriminate D0]. destruct x as [| | |d|l]; try discriminate D0.
      - destruct (assoc n d) as [y|]; [|discriminate D0]. cbn [look] in D0. congruence.
      - destruct (find (has_name n) l) as [y|]; [|discriminate D0]. cbn [look] in D0. congruence. }
    rewrite RC. destruct q as [|g q]; [exfalso; apply N2; reflexivity|]. cbn [look]. rewrite assoc_dict_set.
    assert (text_eqb g f = false) as -> by (apply text_eqb_neq; intros ->; apply (proj1 A q); reflexivity). reflexivity.
  - apply FR; [|exact N1]. destruct A as [A1 A2]. split.
    + intros r ->. apply Ep. reflexivity.
    + intros r Er. destruct p as [|a [|b q]]; [apply (A2 (t "databases" :: n :: [f])); reflexivity| |].
      * cbn [app] in Er. apply N1. congruence.
      * cbn [app] in Er. apply Ep. cbn [firstn]. congruence.
Qed.
(** SET @databases.<n> = null removes the database. *)
Theorem set_database_null : forall n c, databases_ok c -> databases_unique c ->
  exists c', set [t "databases"; n] CNull c = Ok c' /\ (forall p, read c' (t "databases" :: n :: p) = None) /\ databases_ok c' /\ databases_unique c' /\
    forall p, apart [t "databases"; n] p -> p <> [t "databases"] -> read c' p = read c p.
Proof.
  intros n c (l & L & F) U. unfold Config_Model.set. rewrite text_eqb_refl, L.
  destruct (update_named_remove n [(t_name, CStr n)] (set_database json parse_view n [] CNull) l F (U l L)) as (l' & Up & R & Fn & Fo & ND & _); [reflexivity|].
  rewrite Up. cbn [bind]. eexists. split; [reflexivity|]. unfold read. split.
  { intro p. cbn [look]. rewrite assoc_dict_set, text_eqb_refl. cbn [look]. rewrite Fn. reflexivity. }
  split; [exists l'; split; [rewrite assoc_dict_set, text_eqb_refl; reflexivity|exact R]|].
  split; [intros l2 E2; rewrite assoc_dict_set, text_eqb_refl in E2; injection E2 as <-; exact ND|].
  intros p [A1 A2] Nk. destruct p as [|k' p]; [exfalso; apply (A2 [t "databases"; n]); reflexivity|]. cbn [look]. rewrite assoc_dict_set.
  destruct (text_eqb k' (t "databases")) eqn:Ek; [|reflexivity]. apply text_eqb_spec in Ek. subst k'. rewrite L. destruct p as [|m p]; [exfalso; apply Nk; reflexivity|].
  cbn [look]. rewrite Fo; [reflexivity|]. intros ->. apply (A1 p). reflexivity.
Qed.
End Props.

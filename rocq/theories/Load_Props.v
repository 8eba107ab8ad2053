(** Loading the configuration: property theorems (C94 .. C99). *)
From Verif Require Import Base Agg_Model Json_Proofs Config_Model Config_Spec Config_Props Config_Merge Config_Sets Load_Spec Load_Model Load_Proofs.
From Coq Require Import Relations Wellfounded Permutation.
Open Scope nat_scope.

(** ** Databases *)
Section Databases.
Variable prefix : cval.
Notation set_databases := (set_databases prefix). Notation redis_fields := (redis_fields prefix). Notation redis_defaults := (redis_defaults prefix).

Lemma Some_inj : forall A (x y : A), Some x = Some y -> x = y.
Proof. congruence. Qed.
Lemma Ok_inj : forall A (x y : A), Ok x = Ok y -> x = y.
Proof. congruence. Qed.
Lemma names_of_records : forall l, Forall record_ok l -> names_of l = Ok (record_names l).
Proof.
  induction 1 as [|e l (d & n & -> & Hd) _ IH]; [reflexivity|]. cbn [names_of]. unfold t_name. rewrite Hd, IH. cbn [bind]. rewrite (record_names_cons d n l Hd). reflexivity.
Qed.
Lemma with_formats_assoc : forall c d k, assoc k (with_formats c d) =
  if mem k formats then match assoc k c with Some v => if truthy v then Some v else assoc k d | None => assoc k d end else assoc k d.
Proof.
  intros c d k. unfold with_formats.
  assert (G : forall l d, NoDup l -> assoc k (fold_left (fun d k => match assoc k c with Some v => if truthy v then dict_set k v d else d | None => d end) l d) =
    if mem k l then match assoc k c with Some v => if truthy v then Some v else assoc k d | None => assoc k d end else assoc k d).
  { induction l as [|a l IH]; intros d0 N; [reflexivity|]. cbn [fold_left]. inversion N as [|? ? Na N']; subst. rewrite IH by exact N'. cbn [mem existsb].
    destruct (text_eqb k a) eqn:E.
    - apply text_eqb_spec in E. subst a. rewrite (mem_false k l Na). cbn [orb]. destruct (assoc k c) as [v|]; [|reflexivity]. destruct (truthy v); [|reflexivity].
      rewrite assoc_dict_set, text_eqb_refl. reflexivity.
    - cbn [orb]. assert (A : assoc k (match assoc a c with Some v => if truthy v then dict_set a v d0 else d0 | None => d0 end) = assoc k d0).
      { destruct (assoc a c) as [v|]; [|reflexivity]. destruct (truthy v); [|reflexivity]. rewrite assoc_dict_set, E. reflexivity. }
      rewrite A. reflexivity. }
  apply G. repeat constructor; cbn; intuition discriminate.
Qed.
Lemma add_fields_assoc : forall w d k, assoc k (add_fields w d) = match assoc k d with Some v => Some v | None => assoc k w end.
Proof.
  unfold add_fields. induction w as [|[a v] w IH]; intros d k; [cbn; destruct (assoc k d); reflexivity|]. cbn [fold_left fst snd]. rewrite IH. cbn [assoc].
  destruct (mem a (map fst d)) eqn:M.
  - destruct (assoc k d) eqn:A; [reflexivity|]. destruct (text_eqb k a) eqn:E; [|reflexivity]. apply text_eqb_spec in E. subst a. exfalso.
    apply mem_In in M. clear - M A. induction d as [|[b x] d IHd]; [destruct M|]. cbn in M, A. destruct (text_eqb k b) eqn:E; [discriminate A|].
    destruct M as [->|M]; [rewrite text_eqb_refl in E; discriminate E|apply IHd; assumption].
  - rewrite assoc_dict_set. destruct (text_eqb k a) eqn:E; [|reflexivity]. apply text_eqb_spec in E. subst a. destruct (assoc k d) eqn:A; [|reflexivity]. exfalso.
    assert (mem k (map fst d) = true); [|congruence]. apply mem_In. clear - A. induction d as [|[b x] d IHd]; [discriminate A|]. cbn in *. destruct (text_eqb k b) eqn:E; [left; symmetry; apply text_eqb_spec, E|right; auto].
Qed.
Definition textual (d : conf) : bool := match assoc (t "driver") d with Some v => existsb (fun x => is_text x v) text_drivers | None => false end.
Lemma textual_iff : forall d, textual d = true <-> is_driver d text_drivers.
Proof.
  intro d. unfold textual, is_driver. split.
  - destruct (assoc (t "driver") d) as [v|]; [|discriminate]. intro H. apply existsb_exists in H. destruct H as (x & I & E). destruct v as [|s| | |]; try discriminate E.
    cbn in E. apply text_eqb_spec in E. subst. eauto.
  - intros (s & -> & I). apply existsb_exists. exists s. split; [exact I|apply text_eqb_refl].
Qed.
Lemma set_formats_find : forall c l l', Forall record_ok l -> set_formats c l = Ok l' -> forall n,
  find (has_name n) l' = match find (has_name n) l with Some (CDict d) => Some (CDict (if textual d then with_formats c d else d)) | x => x end.
Proof.
  intros c l l' FA. revert l'. induction FA as [|e l (d & m & -> & Hd) F IH]; intros l' E n; cbn [set_formats] in E; [injection E as <-; reflexivity|].
  unfold driver_of in E. destruct (assoc (t "driver") d) as [v|] eqn:Dv; [|discriminate E]. cbn [bind] in E. destruct (set_formats c l) as [l2|] eqn:E2; [|discriminate E]. cbn [bind] in E. apply Ok_inj in E. subst l'.
  assert (T : existsb (fun x => is_text x v) [t "textline"; t "json"; t "csv"] = textual d) by (unfold textual; rewrite Dv; reflexivity). rewrite T.
  assert (H1 : has_name n (if textual d then CDict (with_formats c d) else CDict d) = text_eqb m n).
  { destruct (textual d); [|exact (has_name_rec d m n Hd)]. apply has_name_rec. rewrite with_formats_assoc. exact Hd. }
  cbn [find]. rewrite H1, (has_name_rec d m n Hd). destruct (text_eqb m n); [destruct (textual d); reflexivity|]. apply IH. reflexivity.
Qed.
Lemma redis_find : forall l l', Forall record_ok l -> redis_defaults l = Ok l' -> Forall record_ok l' /\ forall n, n <> t "--" -> find (has_name n) l' = find (has_name n) l.
Proof.
  intros l l' FA. revert l'. induction FA as [|e l (d & m & -> & Hd) F IH]; intros l' E; cbn [Load_Model.redis_defaults] in E; [injection E as <-; split; [constructor|reflexivity]|].
  rewrite (named_ok (t "--") (CDict d)) in E by (exists d, m; auto). cbn [bind] in E. rewrite (has_name_rec d m _ Hd) in E. destruct (text_eqb m (t "--")) eqn:M.
  - apply text_eqb_spec in M. subst m. unfold driver_of in E. destruct (assoc (t "driver") d) as [v|]; [|discriminate E]. cbn [bind] in E. apply Ok_inj in E. subst l'.
    assert (R : assoc (t "name") (add_fields redis_fields d) = Some (CStr (t "--"))) by (rewrite add_fields_assoc, Hd; reflexivity).
    split; [constructor; [|exact F]; destruct (is_text (t "redis") v); eauto 6 using ex_intro; [exists (add_fields redis_fields d), (t "--"); auto|exists d, (t "--"); auto]|].
    intros n N. cbn [find]. assert (HN : has_name n (if is_text (t "redis") v then CDict (add_fields redis_fields d) else CDict d) = false).
    { destruct (is_text (t "redis") v); [rewrite (has_name_rec _ (t "--") n R)|rewrite (has_name_rec d (t "--") n Hd)]; apply text_eqb_neq; congruence. }
    rewrite HN, (has_name_rec d (t "--") n Hd). assert (text_eqb (t "--") n = false) as -> by (apply text_eqb_neq; congruence). reflexivity.
  - destruct (redis_defaults l) as [l2|] eqn:E2; [|discriminate E]. cbn [bind] in E. apply Ok_inj in E. subst l'. destruct (IH l2 eq_refl) as [F2 FF]. split; [constructor; [exists d, m; auto|exact F2]|].
    intros n N. cbn [find]. rewrite (has_name_rec d m n Hd). destruct (text_eqb m n); [reflexivity|auto].
Qed.
Lemma redis_find_self : forall l l', Forall record_ok l -> redis_defaults l = Ok l' -> forall d, find (has_name (t "--")) l = Some (CDict d) ->
  exists d', find (has_name (t "--")) l' = Some (CDict d') /\ d' = if is_text (t "redis") (match assoc (t "driver") d with Some v => v | None => CNull end) then add_fields redis_fields d else d.
Proof.
  intros l l' FA. revert l'. induction FA as [|e l (d & m & -> & Hd) F IH]; intros l' E d0 Fd; cbn [Load_Model.redis_defaults] in E; [discriminate Fd|].
  rewrite (named_ok (t "--") (CDict d)) in E by (exists d, m; auto). cbn [bind] in E. rewrite (has_name_rec d m _ Hd) in E. cbn [find] in Fd. rewrite (has_name_rec d m _ Hd) in Fd. destruct (text_eqb m (t "--")) eqn:M.
  - apply text_eqb_spec in M. subst m. injection Fd as <-. unfold driver_of in E. destruct (assoc (t "driver") d) as [v|]; [|discriminate E]. cbn [bind] in E. apply Ok_inj in E. subst l'.
    assert (R : assoc (t "name") (add_fields redis_fields d) = Some (CStr (t "--"))) by (rewrite add_fields_assoc, Hd; reflexivity).
    destruct (is_text (t "redis") v); eexists; (split; [|reflexivity]); cbn [find]; [rewrite (has_name_rec _ _ _ R)|rewrite (has_name_rec _ _ _ Hd)]; rewrite text_eqb_refl; reflexivity.
  - destruct (redis_defaults l) as [l2|] eqn:E2; [|discriminate E]. cbn [bind] in E. apply Ok_inj in E. subst l'. destruct (IH l2 eq_refl d0 Fd) as (d' & F' & ->). eexists. split; [|reflexivity].
    cbn [find]. rewrite (has_name_rec d m _ Hd), M. exact F'.
Qed.

(** Every option of every database after loading, exactly. *)
Theorem databases_after_load : forall c c', proper c -> set_databases c = Ok c' ->
  (forall k, k <> t "databases" -> assoc k c' = assoc k c) /\
  forall n f, read c' [t "databases"; n; f] =
    match configured c n with
    | None => None
    | Some d =>
      if textual d && mem f format_keys && match assoc f c with Some v => truthy v | None => false end then assoc f c
      else match assoc f d with
           | Some v => Some v
           | None => if text_eqb n (t "--") && is_text (t "redis") (match assoc (t "driver") d with Some v => v | None => CNull end) then assoc f redis_fields else None
           end
    end.
Proof.
  intros c c' (Nc & _ & Dc) E. unfold Load_Model.set_databases in E.
  assert (L : exists l, match assoc (t "databases") c with None => Ok [] | Some (CList l) => Ok l | Some _ => Err TypeError end = Ok l /\ Forall record_ok l /\ NoDup (record_names l) /\
    forall n, match read c [t "databases"; n] with Some (CDict d) => Some d | _ => None end = match find (has_name n) l with Some (CDict d) => Some d | _ => None end).
  { unfold read. cbn [look]. destruct (assoc (t "databases") c) as [v|]; [|exists []; repeat split; constructor].
    destruct v as [| | | |l]; try contradiction. exists l. destruct Dc as (F & N & _). repeat split; [exact F|exact N|]. intro n. cbn [look]. destruct (find (has_name n) l); reflexivity. }
  destruct L as (l & EL & F & N & RL). rewrite EL in E. cbn [bind] in E. unfold add_standard in E. rewrite (names_of_records l F) in E. cbn [bind] in E.
  set (std1 := CDict [(t "name", CStr (t "-")); (t "driver", CStr (t "textline"))]) in E. set (std2 := CDict [(t "name", CStr (t "--")); (t "driver", CStr (t "memory"))]) in E.
  set (l1 := if mem (t "-") (record_names l) then l else l ++ [std1]) in E.
  assert (F1 : Forall record_ok l1).
  { unfold l1. destruct (mem (t "-") (record_names l)); [exact F|]. apply Forall_app. split; [exact F|]. constructor; [|constructor]. eexists. eexists. split; reflexivity. }
  assert (R1 : forall n, find (has_name n) l1 = match find (has_name n) l with Some e => Some e | None => if text_eqb n (t "-") then Some std1 else None end).
  { intro n. unfold l1. destruct (mem (t "-") (record_names l)) eqn:M.
    - destruct (find (has_name n) l) eqn:Q; [reflexivity|]. destruct (text_eqb n (t "-")) eqn:En; [|reflexivity]. apply text_eqb_spec in En. subst n. exfalso.
      apply mem_In in M. apply (names_find l _ F) in M. congruence.
    - rewrite find_app_rec. destruct (find (has_name n) l); [reflexivity|]. cbn [find]. change (has_name n std1) with (text_eqb (t "-") n). rewrite text_eqb_sym. reflexivity. }
  assert (REC : forall n e, find (has_name n) l = Some e -> exists d, e = CDict d) by (intros n e H; destruct (find_has_name_in n l e H) as (d & -> & _); eauto).
  (* the list after the standard databases *)
  assert (X : exists l2, (if mem (t "--") (record_names l) then redis_defaults l1 else Ok (l1 ++ [std2])) = Ok l2 /\ Forall record_ok l2 /\
    forall n, find (has_name n) l2 = match configured c n with None => None
      | Some d => Some (CDict (if text_eqb n (t "--") && is_text (t "redis") (match assoc (t "driver") d with Some v => v | None => CNull end) then add_fields redis_fields d else d)) end).
  { assert (CF : forall n, configured c n = match find (has_name n) l with Some (CDict d) => Some d | _ => standard n end).
    { intro n. unfold configured. specialize (RL n). destruct (read c [t "databases"; n]) as [[| | |d|]|], (find (has_name n) l) as [[| | |d'|]|]; try reflexivity; try discriminate RL; congruence. }
    destruct (mem (t "--") (record_names l)) eqn:M.
    - destruct (redis_defaults l1) as [l2|] eqn:RD; [|discriminate E]. exists l2. split; [reflexivity|]. destruct (redis_find l1 l2 F1 RD) as [F2 RO]. split; [exact F2|].
      intro n. rewrite CF. destruct (text_eqb n (t "--")) eqn:En.
      + apply text_eqb_spec in En. subst n. apply mem_In in M. apply (names_find l _ F) in M. destruct (find (has_name (t "--")) l) as [e|] eqn:Q; [|congruence].
        destruct (REC _ _ Q) as [d ->]. cbn [andb]. assert (Q1 : find (has_name (t "--")) l1 = Some (CDict d)) by (rewrite R1, Q; reflexivity).
        destruct (redis_find_self l1 l2 F1 RD d Q1) as (d' & -> & ->). reflexivity.
      + apply text_eqb_neq in En. rewrite (RO n En), R1. cbn [andb]. destruct (find (has_name n) l) as [e|] eqn:Q; [destruct (REC _ _ Q) as [d ->]; reflexivity|].
        unfold standard. destruct (text_eqb n (t "-")) eqn:E1; [reflexivity|]. assert (text_eqb n (t "--") = false) as -> by (apply text_eqb_neq; exact En). reflexivity.
    - eexists. split; [reflexivity|]. split; [apply Forall_app; split; [exact F1|constructor; [eexists; eexists; split; reflexivity|constructor]]|].
      intro n. rewrite find_app_rec, R1, CF. destruct (find (has_name n) l) as [e|] eqn:Q.
      + destruct (REC _ _ Q) as [d ->]. destruct (text_eqb n (t "--")) eqn:En; [|reflexivity]. apply text_eqb_spec in En. subst n. exfalso.
        assert (mem (t "--") (record_names l) = true); [|congruence]. apply mem_In, (names_find l _ F). congruence.
      + unfold standard. destruct (text_eqb n (t "-")) eqn:E1.
        * apply text_eqb_spec in E1. subst n. reflexivity.
        * cbn [find]. change (has_name n std2) with (text_eqb (t "--") n). rewrite text_eqb_sym. destruct (text_eqb n (t "--")) eqn:En; reflexivity. }
  destruct X as (l2 & E2 & F2 & R2). rewrite E2 in E. cbn [bind] in E. destruct (set_formats c l2) as [l3|] eqn:E3; [|discriminate E]. cbn [bind] in E. apply Ok_inj in E. subst c'.
  split; [intros k Nk; rewrite assoc_dict_set; assert (text_eqb k (t "databases") = false) as -> by (apply text_eqb_neq; exact Nk); reflexivity|].
  intros n f. unfold read. cbn [look]. rewrite assoc_dict_set, text_eqb_refl. cbn [look]. rewrite (set_formats_find c l2 l3 F2 E3 n), R2. destruct (configured c n) as [d|]; [|reflexivity].
  set (rd := text_eqb n (t "--") && is_text (t "redis") (match assoc (t "driver") d with Some v => v | None => CNull end)).
  cbn [look]. match goal with |- context [textual (if rd then ?a else ?b)] => set (dd := if rd then a else b) end.
  assert (TX : textual dd = textual d).
  { subst dd. destruct rd; [|reflexivity]. unfold textual. rewrite add_fields_assoc. destruct (assoc (t "driver") d); reflexivity. }
  assert (AF : assoc f dd = match assoc f d with Some v => Some v | None => if rd then assoc f redis_fields else None end).
  { subst dd. destruct rd; [apply add_fields_assoc|destruct (assoc f d); reflexivity]. }
  change (match assoc f (if textual dd then with_formats c dd else dd) with Some w => Some w | None => None end =
    if textual d && mem f format_keys && match assoc f c with Some v => truthy v | None => false end then assoc f c
    else match assoc f d with Some v => Some v | None => if rd then assoc f redis_fields else None end).
  clearbody dd rd. rewrite TX. destruct (textual d); cbn [andb]; rewrite ?with_formats_assoc, ?AF; [change (mem f formats) with (mem f format_keys); destruct (mem f format_keys); cbn [andb]|].
  - destruct (assoc f c) as [v|]; [destruct (truthy v)|]; try reflexivity; destruct (assoc f d), rd; try reflexivity; destruct (assoc f redis_fields); reflexivity.
  - destruct (assoc f d), rd; try reflexivity; destruct (assoc f redis_fields); reflexivity.
  - destruct (assoc f d), rd; try reflexivity; destruct (assoc f redis_fields); reflexivity.
Qed.
End Databases.

(** ** The whole of loading *)
Lemma assoc_settings : forall k f, k <> t "extends" -> assoc k (settings f) = assoc k f.
Proof.
  intros k f N. induction f as [|[a v] f IH]; [reflexivity|]. unfold settings in *. cbn [filter fst assoc]. destruct (text_eqb a (t "extends")) eqn:E; cbn [negb].
  - rewrite IH. apply text_eqb_spec in E. subst a. assert (text_eqb k (t "extends") = false) as -> by (apply text_eqb_neq; exact N). reflexivity.
  - cbn [assoc]. rewrite IH. reflexivity.
Qed.
Lemma filter_keys_nodup : forall (p : text * cval -> bool) f, NoDup (map fst f) -> NoDup (map fst (filter p f)).
Proof.
  intros p. induction f as [|e f IH]; intro N; [constructor|]. cbn [map] in N. inversion N as [|? ? Na N']; subst. cbn [filter]. destruct (p e); [|auto]. cbn [map]. constructor; [|auto].
  intro I. apply Na. apply in_map_iff in I. destruct I as (x & E & I). apply filter_In in I. apply in_map_iff. exists x. tauto.
Qed.
Lemma proper_settings : forall f, proper f -> proper (settings f).
Proof.
  intros f (N & S & D). split; [apply filter_keys_nodup, N|]. split.
  - intros k I. rewrite assoc_settings; [apply S, I|]. intros ->. cbn in I. intuition discriminate.
  - rewrite assoc_settings by discriminate. exact D.
Qed.
(** Keeping a part of the top level keeps well-formedness. *)
Lemma assoc_part : forall (p : text * cval -> bool) f k v, NoDup (map fst f) -> assoc k (filter p f) = Some v -> assoc k f = Some v.
Proof.
  intros p. induction f as [|[a x] f IH]; intros k v N H; [discriminate H|]. cbn [map fst] in N. inversion N as [|? ? Na N']; subst. cbn [filter] in H. cbn [assoc].
  destruct (p (a, x)).
  - cbn [assoc] in H. destruct (text_eqb k a); [exact H|apply IH; assumption].
  - destruct (text_eqb k a) eqn:E; [|apply IH; assumption]. apply text_eqb_spec in E. subst a. exfalso. apply Na. specialize (IH _ _ N' H).
    clear - IH. induction f as [|[b y] f IHf]; [discriminate IH|]. cbn in *. destruct (text_eqb k b) eqn:E; [left; symmetry; apply text_eqb_spec, E|right; auto].
Qed.
Lemma proper_part : forall p f, proper f -> proper (filter p f).
Proof.
  intros p f (N & S & D). split; [apply filter_keys_nodup, N|]. split.
  - intros k I. specialize (S k I). destruct (assoc k (filter p f)) as [v|] eqn:E; [|exact Coq.Init.Logic.I]. rewrite (assoc_part p f k v N E) in S. exact S.
  - destruct (assoc (t "databases") (filter p f)) as [v|] eqn:E; [|exact Coq.Init.Logic.I]. rewrite (assoc_part p f _ v N E) in D. exact D.
Qed.

Section Load.
Variable default : conf.
Variable content : text -> option conf.
Variable there : text -> bool.
Variable join_home : text -> text.
Variable prefix : cval.
Hypothesis default_proper : proper default.
Hypothesis default_extends : assoc (t "extends") default = None \/ assoc (t "extends") default = Some (CList []).
Hypothesis default_lists : forall k, k = t "states" \/ k = t "executes" -> match assoc k default with None | Some (CList _) => True | _ => False end.
Hypothesis files_proper : forall n f, content n = Some f -> proper f /\ exists es, names_in (assoc (t "extends") f) es.
Notation load := (load default content there join_home prefix).

(** The defaults that are not empty are applied after the files. *)
Definition solid : conf := filter (fun e => truthy (snd e)) default.

(** What is to be loaded: the files, then the defaults that are not empty, then the custom configuration. *)
Definition ext_list (c : conf) (l : list text) : Prop := match assoc (t "extends") c with None => l = [] | Some v => v = CList (map CStr l) end.
Lemma settings_set : forall v c, settings (dict_set (t "extends") v c) = settings c.
Proof.
  intros v c. induction c as [|[a x] c IH]; [reflexivity|]. unfold settings in *. cbn [dict_set]. destruct (text_eqb (t "extends") a) eqn:E.
  - cbn [filter fst]. rewrite text_eqb_sym in E. rewrite E. reflexivity.
  - cbn [filter fst]. rewrite text_eqb_sym in E. rewrite E. cbn [negb]. f_equal. exact IH.
Qed.
Lemma with_files_ext : forall order c l, ext_list c l -> NoDup (l ++ order) -> NoDup (map fst c) ->
  ext_list (with_files there order c) (l ++ filter there order) /\ settings (with_files there order c) = settings c /\ NoDup (map fst (with_files there order c)) /\
  (mem (t "extends") (map fst c) = true -> mem (t "extends") (map fst (with_files there order c)) = true).
Proof.
  induction order as [|n order IH]; intros c l H N K; [cbn; rewrite app_nil_r; auto|]. unfold with_files. cbn [fold_left filter].
  assert (Nl : NoDup ((l ++ [n]) ++ order)) by (rewrite <- app_assoc; exact N).
  destruct (there n) eqn:T.
  - assert (L : match assoc t_ext c with Some (CList l) => l | _ => [] end = map CStr l).
    { unfold t_ext, ext_list in *. destruct (assoc (t "extends") c); [rewrite H|rewrite H]; reflexivity. }
    rewrite L. assert (X : existsb (fun v => match v with CStr m => text_eqb m n | _ => false end) (map CStr l) = false).
    { destruct (existsb _ (map CStr l)) eqn:E; [|reflexivity]. exfalso. apply existsb_exists in E. destruct E as (v & I & E). apply in_map_iff in I. destruct I as (m & <- & I).
      apply text_eqb_spec in E. subst m. apply NoDup_remove_2 in N. apply N, in_or_app. left. exact I. }
    rewrite X. replace (map CStr l ++ [CStr n]) with (map CStr (l ++ [n])) by (rewrite map_app; reflexivity). unfold t_ext.
    set (c1 := dict_set (t "extends") (CList (map CStr (l ++ [n]))) c).
    assert (H1 : ext_list c1 (l ++ [n])) by (unfold ext_list, c1; rewrite assoc_dict_set, text_eqb_refl; reflexivity).
    assert (K1 : NoDup (map fst c1)) by (apply dict_set_nodup, K).
    destruct (IH c1 (l ++ [n]) H1 Nl K1) as (E1 & E2 & E3 & E4). rewrite <- app_assoc in E1. change (fold_left _ order c1) with (with_files there order c1). cbn [app] in E1.
    split; [exact E1|]. split; [rewrite E2; apply settings_set|]. split; [exact E3|]. intros M. apply E4. unfold c1. rewrite dict_set_keys, M. exact M.
  - apply (IH c l H); [|exact K]. apply NoDup_remove_1 in N. exact N.
Qed.
Lemma assoc_kept : forall (p : text * cval -> bool) f k, NoDup (map fst f) -> assoc k (filter p f) = match assoc k f with Some v => if p (k, v) then Some v else None | None => None end.
Proof.
  intros p f k N. induction f as [|[a x] f IH]; [reflexivity|]. cbn [map fst] in N. inversion N as [|? ? Na N']; subst. specialize (IH N'). cbn [filter assoc].
  destruct (text_eqb k a) eqn:E.
  - apply text_eqb_spec in E. subst a. destruct (p (k, x)); [cbn [assoc]; rewrite text_eqb_refl; reflexivity|].
    assert (A : assoc k f = None). { clear - Na. induction f as [|[b y] f IHf]; [reflexivity|]. cbn in *. destruct (text_eqb k b) eqn:E; [apply text_eqb_spec in E; subst; tauto|tauto]. }
    rewrite IH, A. reflexivity.
  - destruct (p (a, x)); [cbn [assoc]; rewrite E|]; exact IH.
Qed.
Lemma filter_swap : forall A (p q : A -> bool) l, filter p (filter q l) = filter q (filter p l).
Proof. intros A p q. induction l as [|x l IH]; [reflexivity|]. cbn [filter]. destruct (q x) eqn:Q, (p x) eqn:P; cbn [filter]; rewrite ?P, ?Q, IH; reflexivity. Qed.

Lemma prepared : forall order, NoDup order ->
  let c := drop_falsy default (with_files there order default) in listed c = map CStr (filter there order) /\ settings c = settings solid.
Proof.
  intros order N c. destruct default_proper as [ND _]. assert (X0 : ext_list default []).
  { unfold ext_list. destruct default_extends as [->| ->]; reflexivity. }
  destruct (with_files_ext order default [] X0 N ND) as (E1 & E2 & E3 & E4). cbn [app] in E1. split.
  - unfold listed, c, t_ext, drop_falsy. rewrite assoc_kept by exact E3. unfold ext_list in E1. destruct (assoc (t "extends") (with_files there order default)) as [v|] eqn:A.
    + subst v. cbn [fst snd]. destruct (filter there order) as [|a l].
      * cbn [map truthy negb]. rewrite andb_true_r. destruct (mem (t "extends") (map fst default)); reflexivity.
      * cbn [map truthy negb]. rewrite andb_false_r. reflexivity.
    + rewrite E1. reflexivity.
  - unfold c, drop_falsy. unfold settings in *. rewrite filter_swap, E2, filter_swap. f_equal. unfold solid. clear - ND.
    assert (G : forall d, (forall e, In e d -> mem (fst e) (map fst default) = true) -> filter (fun e => negb (mem (fst e) (map fst default) && negb (truthy (snd e)))) d = filter (fun e => truthy (snd e)) d).
    { intros d H. apply filter_ext_in. intros e I. rewrite (H e I). cbn [andb]. apply negb_involutive. }
    apply G. intros e I. apply mem_In, in_map, I.
Qed.

Lemma chains_proper : forall es l, chains content es l -> Forall proper l.
Proof.
  apply (chains_mut content (fun n l _ => Forall proper l) (fun es l _ => Forall proper l)).
  - intros n f es l Hf _ _ IH. apply Forall_app. split; [exact IH|]. constructor; [apply proper_settings, (proj1 (files_proper n f Hf))|constructor].
  - constructor.
  - intros n r l1 l2 _ IH1 _ IH2. apply Forall_app. split; assumption.
Qed.
Definition all_of (l : list conf) (custom : option conf) : list conf := l ++ settings solid :: match custom with None => [] | Some c => [c] end.

Lemma load_inv : forall fuel order custom c' fs, NoDup order -> (match custom with None => True | Some c => proper c end) -> load fuel order custom default = Some (Ok (c', fs)) ->
  exists l c1 c2, chains content (filter there order) l /\ merges default (all_of l custom) = Ok c1 /\ Forall proper (all_of l custom) /\
    set_databases prefix c1 = Ok c2 /\ c' = dict_del (t "executes") c2 /\
    match assoc (t "executes") c2 with None => fs = [] | Some (CList x) => find_files there join_home x = Ok fs | _ => False end.
Proof.
  intros fuel order custom c' fs N PC H. unfold Load_Model.load in H. destruct fuel as [|fuel]; [discriminate H|]. rewrite load_self in H.
  destruct (prepared order N) as [E1 E2]. rewrite E1 in H. rewrite settings_del, E2 in H.
  destruct (load_list default content fuel (map CStr (filter there order)) default) as [[ca|]|] eqn:LL; [|discriminate H|discriminate H].
  apply (load_chain default content (fun n f Hf => proj2 (files_proper n f Hf)) fuel) in LL. destruct LL as (l & CH & ML). apply Some_inj in H.
  destruct (merge_config ca (settings solid)) as [cb|] eqn:MB; [|discriminate H]. cbn [bind] in H.
  assert (FP : Forall proper (all_of l custom)).
  { unfold all_of. apply Forall_app. split; [apply (chains_proper _ _ CH)|]. constructor; [apply proper_settings, proper_part, default_proper|]. destruct custom; [constructor; [exact PC|constructor]|constructor]. }
  destruct (match custom with None => Ok cb | Some cu => merge_config cb cu end) as [c1|] eqn:MC; [|discriminate H]. cbn [bind] in H.
  destruct (set_databases prefix c1) as [c2|] eqn:SD; [|discriminate H]. cbn [bind] in H.
  exists l, c1, c2. split; [exact CH|]. split.
  { unfold all_of. rewrite merges_app, ML. cbn [bind merges]. rewrite MB. cbn [bind]. destruct custom as [cu|]; cbn [merges]; [rewrite MC; reflexivity|exact MC]. }
  split; [exact FP|]. split; [exact SD|].
  destruct (assoc (t "executes") c2) as [v|].
  - destruct v as [| | | |x]; try discriminate H. destruct (find_files there join_home x) as [fs'|]; [|discriminate H]. cbn [bind] in H. apply Ok_inj in H. injection H as <- <-. split; reflexivity.
  - cbn [bind] in H. apply Ok_inj in H. injection H as <- <-. split; reflexivity.
Qed.
Lemma latest_cons : forall path c l, latest path (c :: l) = match latest path l with Some v => Some v | None => read c path end.
Proof. intros path c l. unfold latest. cbn [fold_left]. rewrite fold_latest. unfold latest. destruct (fold_left _ l None); [reflexivity|]. destruct (read c path); reflexivity. Qed.
Lemma settings_no_databases : forall path, setting path -> ~ In (t "databases") (firstn 1 path) -> firstn 1 path <> [t "executes"] /\ firstn 1 path <> [t "databases"].
Proof.
  intros path [(k & -> & N)|[(k & n & -> & I)|(n & f & ->)]] ND; cbn [firstn] in *.
  - split; intro E; injection E as ->; apply N; apply in_or_app; right; cbn; tauto.
  - split; intro E; injection E as ->; cbn in I; intuition discriminate.
  - exfalso. apply ND. left. reflexivity.
Qed.

(** *** C94: the value of a setting is the one given last, where a file counts after the files it extends. *)
Theorem settings_latest : forall fuel order custom c' fs, NoDup order -> (match custom with None => True | Some c => proper c end) -> load fuel order custom default = Some (Ok (c', fs)) ->
  exists l, chains content (filter there order) l /\
    forall path, setting path -> ~ In (t "databases") (firstn 1 path) ->
      read c' path = latest path (default :: l ++ settings solid :: match custom with None => [] | Some c => [c] end).
Proof.
  intros fuel order custom c' fs N PC H. destruct (load_inv _ _ _ _ _ N PC H) as (l & c1 & c2 & CH & M & FP & SD & -> & _). exists l. split; [exact CH|].
  intros path S ND. destruct (merges_latest _ _ _ default_proper FP M) as [P1 R1]. destruct (databases_after_load prefix c1 c2 P1 SD) as [KE _].
  destruct (settings_no_databases path S ND) as [NE NDB]. rewrite latest_cons. fold (all_of l custom). rewrite <- (R1 path S).
  destruct path as [|k path]; [destruct S as [(k & E & _)|[(k & n & E & _)|(n & f & E)]]; discriminate E|]. cbn [firstn] in NE, NDB.
  unfold read. cbn [look]. rewrite assoc_del. assert (text_eqb k (t "executes") = false) as -> by (apply text_eqb_neq; congruence).
  rewrite KE by congruence. reflexivity.
Qed.

(** *** C95: a setting on which the files agree does not depend on the order in which they are read. *)
Lemma chains_in : forall es l, chains content es l -> forall c, In c l <-> exists n k, In n es /\ chain content n k /\ In c k.
Proof.
  induction 1 as [|n r l1 l2 H1 H2 IH]; intro c; [split; [intros []|intros (n & k & [] & _)]|]. rewrite in_app_iff, IH. split.
  - intros [I|(m & k & I & C & J)]; [exists n, l1|exists m, k]; repeat split; try assumption; [left; reflexivity|right; exact I].
  - intros (m & k & [<-|I] & C & J); [left|right; eauto]. assert (l1 = k) as ->; [|exact J].
    assert (C1 : chains content [n] (l1 ++ [])) by (constructor; [exact H1|constructor]). assert (C2 : chains content [n] (k ++ [])) by (constructor; [exact C|constructor]).
    pose proof (chains_det content _ _ _ C1 C2) as E. rewrite !app_nil_r in E. exact E.
Qed.
Lemma latest_app : forall path l1 l2, latest path (l1 ++ l2) = match latest path l2 with Some v => Some v | None => latest path l1 end.
Proof. intros path l1 l2. unfold latest at 1. rewrite fold_left_app. fold (latest path l1). apply fold_latest. Qed.
Lemma latest_in : forall path l, match latest path l with Some v => exists c, In c l /\ read c path = Some v | None => forall c, In c l -> read c path = None end.
Proof.
  intros path l. induction l as [|c l IH]; [intros c []|]. rewrite latest_cons. destruct (latest path l) as [v|].
  - destruct IH as (c' & I & E). exists c'. split; [right; exact I|exact E].
  - destruct (read c path) as [v|] eqn:E; [exists c; split; [left; reflexivity|exact E]|]. intros c' [<-|I]; [exact E|apply IH, I].
Qed.
Theorem agreed_settings_in_any_order : forall fuel fuel' order order' custom c c' fs fs', Permutation order order' -> NoDup order -> (match custom with None => True | Some c => proper c end) ->
  load fuel order custom default = Some (Ok (c, fs)) -> load fuel' order' custom default = Some (Ok (c', fs')) ->
  forall path, setting path -> ~ In (t "databases") (firstn 1 path) ->
  (forall n1 n2 k1 k2 a b v w, In n1 order -> In n2 order -> chain content n1 k1 -> chain content n2 k2 -> In a k1 -> In b k2 -> read a path = Some v -> read b path = Some w -> v = w) ->
  read c path = read c' path.
Proof.
  intros fuel fuel' order order' custom c c' fs fs' P N PC H H' path S ND AG. assert (N' : NoDup order') by (eapply Permutation_NoDup; eassumption).
  destruct (settings_latest _ _ _ _ _ N PC H) as (l & C & R). destruct (settings_latest _ _ _ _ _ N' PC H') as (l' & C' & R').
  rewrite (R path S ND), (R' path S ND), !latest_cons, !latest_app. destruct (latest path (settings solid :: _)); [reflexivity|].
  assert (Q : latest path l = latest path l'); [|rewrite Q; reflexivity].
  assert (SAME : forall x, In x l <-> In x l').
  { intro x. rewrite (chains_in _ _ C x), (chains_in _ _ C' x). split; intros (n & k & I & X); exists n, k; (split; [|exact X]); apply filter_In in I; apply filter_In; (split; [|apply I]);
      [apply (Permutation_in _ P)|apply (Permutation_in _ (Permutation_sym P))]; apply I. }
  assert (FROM : forall x, In x l -> exists n k, In n order /\ chain content n k /\ In x k).
  { intros x I. apply (chains_in _ _ C) in I. destruct I as (n & k & I & X). apply filter_In in I. exists n, k. tauto. }
  pose proof (latest_in path l) as A. pose proof (latest_in path l') as A'. destruct (latest path l) as [v|], (latest path l') as [w|]; [| | |reflexivity].
  - destruct A as (a & Ia & Ea), A' as (b & Ib & Eb). apply SAME in Ib. destruct (FROM a Ia) as (n1 & k1 & I1 & C1 & J1). destruct (FROM b Ib) as (n2 & k2 & I2 & C2 & J2).
    f_equal. exact (AG n1 n2 k1 k2 a b v w I1 I2 C1 C2 J1 J2 Ea Eb).
  - destruct A as (a & Ia & Ea). apply SAME in Ia. rewrite (A' a Ia) in Ea. discriminate Ea.
  - destruct A' as (b & Ib & Eb). apply SAME in Ib. rewrite (A b Ib) in Eb. discriminate Eb.
Qed.

(** *** C97: the initial files are all those named, in that order. *)
Lemma find_files_located : forall l fs, find_files there join_home l = Ok fs -> exists ns, l = map CStr ns /\ Forall2 (located there join_home) ns fs.
Proof.
  induction l as [|v l IH]; intros fs H; cbn [find_files] in H; [injection H as <-; exists []; split; [reflexivity|constructor]|].
  destruct v as [|n| | |]; try discriminate H. destruct (if there n then _ else _) as [m|] eqn:E; [|discriminate H]. cbn [bind] in H.
  destruct (find_files there join_home l) as [ms|] eqn:E2; [|discriminate H]. cbn [bind] in H. apply Ok_inj in H. subst fs. destruct (IH ms eq_refl) as (ns & -> & F).
  exists (n :: ns). split; [reflexivity|]. constructor; [|exact F]. unfold located. destruct (there n) eqn:T; [injection E as ->; left; auto|].
  destruct (there (join_home n)) eqn:T2; [injection E as ->; right; auto|discriminate E].
Qed.
Theorem initial_files_in_order : forall fuel order custom c' fs, NoDup order -> (match custom with None => True | Some c => proper c end) -> load fuel order custom default = Some (Ok (c', fs)) ->
  exists l ns, chains content (filter there order) l /\
    flat_map (items (t "executes")) (default :: l ++ settings solid :: match custom with None => [] | Some c => [c] end) = map CStr ns /\
    Forall2 (located there join_home) ns fs /\ read c' [t "executes"] = None.
Proof.
  intros fuel order custom c' fs N PC H. destruct (load_inv _ _ _ _ _ N PC H) as (l & c1 & c2 & CH & M & FP & SD & -> & FF). exists l.
  assert (FN : Forall (fun v : conf => NoDup (map fst v)) (all_of l custom)) by (eapply Forall_impl; [|exact FP]; intros a Pa; exact (proj1 Pa)).
  destruct (merges_items (t "executes") _ _ _ (or_intror eq_refl) FN M (default_lists _ (or_intror eq_refl))) as [SH IT].
  destruct (merges_latest _ _ _ default_proper FP M) as [P1 _]. destruct (databases_after_load prefix c1 c2 P1 SD) as [KE _]. rewrite KE in FF by discriminate.
  assert (X : exists ns, items (t "executes") c1 = map CStr ns /\ Forall2 (located there join_home) ns fs).
  { unfold items. destruct (assoc (t "executes") c1) as [v|]; [|exists []; subst fs; split; [reflexivity|constructor]]. destruct v; try contradiction. apply find_files_located, FF. }
  destruct X as (ns & E & F). exists ns. split; [exact CH|]. cbn [flat_map]. fold (all_of l custom). rewrite <- IT, E. split; [reflexivity|]. split; [exact F|].
  unfold read. cbn [look]. rewrite assoc_del, text_eqb_refl. reflexivity.
Qed.
(** A missing initial file stops the program. *)
Theorem missing_initial_file : forall fuel order custom n, (match custom with None => True | Some c => proper c end) -> NoDup order ->
  there n = false -> there (join_home n) = false ->
  forall c' fs, load fuel order custom default = Some (Ok (c', fs)) ->
  forall l, chains content (filter there order) l -> ~ In (CStr n) (flat_map (items (t "executes")) (default :: l ++ settings solid :: match custom with None => [] | Some c => [c] end)).
Proof.
  intros fuel order custom n PC N T1 T2 c' fs H l CH I. destruct (initial_files_in_order _ _ _ _ _ N PC H) as (l' & ns & CH' & E & F & _).
  assert (l' = l) as -> by (eapply chains_det; eassumption). rewrite E in I. apply in_map_iff in I. destruct I as (n' & En & I). injection En as ->.
  assert (G : exists m, located there join_home n m) by (clear - F I; induction F as [|a b ns fs L F IH]; [destruct I|destruct I as [->|I]; eauto]).
  destruct G as (m & [[A _]|[_ [A _]]]); congruence.
Qed.

(** *** C96: files that extend each other in a circle. *)
Theorem circle_never_loaded : forall fuel order custom n, NoDup order -> In n order -> there n = true -> clos_trans _ (extends content) n n ->
  forall c' fs, (match custom with None => True | Some c => proper c end) -> load fuel order custom default <> Some (Ok (c', fs)).
Proof.
  intros fuel order custom n N I T C c' fs PC H. destruct (load_inv _ _ _ _ _ N PC H) as (l & _ & _ & CH & _).
  assert (In n (filter there order)) as I' by (apply filter_In; auto). clear - CH I' C. induction CH as [|m r l1 l2 H1 H2 IH]; [destruct I'|].
  destruct I' as [->|I']; [exact (acc_no_circle content n (chain_acc content n l1 H1) C)|exact (IH I')].
Qed.
(** ... and also when the circle is reached from a file that is not on it. *)
Theorem circle_reached_never_loaded : forall fuel order custom n m, NoDup order -> In n order -> there n = true -> clos_trans _ (extends content) n m -> clos_trans _ (extends content) m m ->
  forall c' fs, (match custom with None => True | Some c => proper c end) -> load fuel order custom default <> Some (Ok (c', fs)).
Proof.
  intros fuel order custom n m N I T R C c' fs PC H. destruct (load_inv _ _ _ _ _ N PC H) as (l & _ & _ & CH & _).
  assert (In n (filter there order)) as I' by (apply filter_In; auto). clear - CH I' C R. induction CH as [|k r l1 l2 H1 H2 IH]; [destruct I'|].
  destruct I' as [->|I']; [|exact (IH I')]. pose proof (chain_acc content n l1 H1) as A. clear - A R C.
  assert (A' : Acc (clos_trans _ (fun m n => extends content n m)) n) by (apply Acc_clos_trans, A).
  assert (T : forall a b, clos_trans _ (extends content) a b -> clos_trans _ (fun m n => extends content n m) b a).
  { induction 1 as [a b H|a b c _ IH1 _ IH2]; [apply t_step; exact H|exact (t_trans _ _ _ _ _ IH2 IH1)]. }
  apply T in R, C. apply (Acc_inv A') in R. clear - R C. induction R as [m _ IH]. exact (IH m C C).
Qed.
(** Without a circle, and with finitely many files that can all be read, loading the files ends, and merges the chain. *)
Theorem loading_ends : forall order U, NoDup order ->
  (forall n m, In n order -> there n = true -> clos_trans _ (extends content) n m -> In m U /\ ~ clos_trans _ (extends content) m m) ->
  (forall n m, In n order -> there n = true -> m = n \/ clos_trans _ (extends content) n m -> content m <> None) ->
  exists l k, chains content (filter there order) l /\
    forall fuel, k <= fuel -> load_config default content fuel None (with_files there order default) = Some (merges default (l ++ [settings solid])).
Proof.
  intros order U N AC RD. assert (OT : only_texts content) by (intros n f Hf; exact (proj2 (files_proper n f Hf))).
  assert (CS : forall es, (forall n, In n es -> In n order /\ there n = true) -> exists l, chains content es l).
  { induction es as [|n es IH]; intro S; [exists []; constructor|]. destruct IH as [l2 H2]; [intros; apply S; right; assumption|]. destruct (S n (or_introl eq_refl)) as [I T].
    destruct (chain_exists content OT U n) as [l1 H1]; [ | | |exists (l1 ++ l2); constructor; assumption].
    - intros m R. exact (proj1 (AC n m I T R)).
    - intros m R. exact (proj2 (AC n m I T R)).
    - intros m R. exact (RD n m I T R). }
  destruct (CS (filter there order)) as [l Hl]; [intros n I; apply filter_In in I; exact I|]. destruct (chains_load default content _ _ Hl) as [k HK].
  exists l, (S k). split; [exact Hl|]. intros [|fuel] L; [lia|]. rewrite load_self. destruct (prepared order N) as [E1 E2]. rewrite E1, settings_del, E2, HK by lia.
  rewrite merges_app. destruct (merges default l) as [c|]; [|reflexivity]. cbn [bind merges]. destruct (merge_config c (settings solid)); reflexivity.
Qed.

(** *** C98, C99: the databases. *)
Lemma own_configured : forall c told n f, proper c -> (forall path, setting path -> read c path = told path) ->
  own told n f = match configured c n with Some d => assoc f d | None => None end.
Proof.
  intros c told n f (_ & _ & D) R. unfold own, configured. assert (S : forall g, setting [t "databases"; n; g]) by (intro g; right; right; eauto).
  rewrite <- (R _ (S (t "name"))), <- (R _ (S f)). unfold read. cbn [look]. destruct (assoc (t "databases") c) as [v|]; [|reflexivity]. destruct v as [| | | |l]; try contradiction.
  cbn [look]. destruct D as [F _]. destruct (find (has_name n) l) as [e|] eqn:Q; [|reflexivity]. destruct (find_has_name_in n l e Q) as (d & -> & A). cbn [look]. unfold t_name in A. rewrite A. destruct (assoc f d); reflexivity.
Qed.
Theorem databases_exactly : forall fuel order custom c' fs, NoDup order -> (match custom with None => True | Some c => proper c end) -> load fuel order custom default = Some (Ok (c', fs)) ->
  exists l, chains content (filter there order) l /\
  let told path := latest path (default :: l ++ settings solid :: match custom with None => [] | Some c => [c] end) in
  forall n f,
    (has_driver told n text_drivers -> In f format_keys -> forall v, told [f] = Some v -> truthy v = true -> read c' [t "databases"; n; f] = Some v) /\
    (~ (has_driver told n text_drivers /\ In f format_keys /\ exists v, told [f] = Some v /\ truthy v = true) ->
       forall v, own told n f = Some v -> read c' [t "databases"; n; f] = Some v) /\
    (own told n f = None -> ~ (n = t "--" /\ has_driver told n [t "redis"]) -> ~ (has_driver told n text_drivers /\ In f format_keys) -> read c' [t "databases"; n; f] = None).
Proof.
  intros fuel order custom c' fs N PC H. destruct (load_inv _ _ _ _ _ N PC H) as (l & c1 & c2 & CH & M & FP & SD & -> & _). exists l. split; [exact CH|]. intros told n f.
  destruct (merges_latest _ _ _ default_proper FP M) as [P1 R1]. destruct (databases_after_load prefix c1 c2 P1 SD) as [_ DB].
  assert (R : forall path, setting path -> read c1 path = told path) by (intros path S; unfold told; rewrite latest_cons; exact (R1 path S)).
  assert (RD : read (dict_del (t "executes") c2) [t "databases"; n; f] = read c2 [t "databases"; n; f]) by (unfold read; cbn [look]; rewrite assoc_del; reflexivity).
  rewrite RD, (DB n f), !(own_configured c1 told n _ P1 R). clear RD DB.
  assert (HD : forall names, has_driver told n names <-> exists d, configured c1 n = Some d /\ is_driver d names).
  { intro names. unfold has_driver. split.
    - intros (s & E & I). rewrite (own_configured c1 told n _ P1 R) in E. destruct (configured c1 n) as [d|]; [|discriminate E]. exists d. split; [reflexivity|]. exists s. auto.
    - intros (d & E & s & Ed & I). exists s. rewrite (own_configured c1 told n _ P1 R), E. auto. }
  assert (TF : forall g, In g format_keys -> told [g] = assoc g c1).
  { intros g I. rewrite <- (R [g]); [unfold read; cbn [look]; destruct (assoc g c1); reflexivity|]. left. exists g. split; [reflexivity|]. intro J.
    cbn in I. repeat (destruct I as [<-|I]; [cbn in J; intuition discriminate|]). destruct I. }
  destruct (configured c1 n) as [d|] eqn:CF.
  2: { split; [intros X _; apply HD in X; destruct X as (d & E & _); discriminate E|]. split; [intros _ v E; discriminate E|reflexivity]. }
  assert (TX : textual d = true <-> has_driver told n text_drivers).
  { rewrite textual_iff, HD. split; [eauto|]. intros (d' & E & X). injection E as <-. exact X. }
  assert (RX : is_text (t "redis") (match assoc (t "driver") d with Some v => v | None => CNull end) = true <-> has_driver told n [t "redis"]).
  { rewrite HD. split.
    - intro E. exists d. split; [reflexivity|]. destruct (assoc (t "driver") d) as [v|] eqn:A; [|discriminate E]. destruct v as [|s| | |]; try discriminate E. cbn [is_text] in E.
      apply text_eqb_spec in E. subst s. exists (t "redis"). split; [exact A|left; reflexivity].
    - intros (d' & E & s & A & [<-|[]]). injection E as <-. rewrite A. apply text_eqb_refl. }
  split; [|split].
  - intros X I v E T. apply TX in X. rewrite (TF f I) in E. rewrite X, E, T. assert (mem f format_keys = true) as -> by (apply mem_In, I). reflexivity.
  - intros NX v E. destruct (textual d && mem f format_keys && match assoc f c1 with Some v => truthy v | None => false end) eqn:B.
    + exfalso. apply NX. apply andb_prop in B. destruct B as [B B3]. apply andb_prop in B. destruct B as [B1 B2]. apply mem_In in B2. split; [apply TX, B1|]. split; [exact B2|].
      rewrite (TF f B2). destruct (assoc f c1) as [w|]; [eauto|discriminate B3].
    + rewrite E. reflexivity.
  - intros E NR NX. rewrite E. destruct (textual d && mem f format_keys) eqn:B.
    + exfalso. apply andb_prop in B. destruct B as [B1 B2]. apply NX. split; [apply TX, B1|apply mem_In, B2].
    + cbn [andb]. destruct (text_eqb n (t "--")) eqn:En; [|reflexivity]. apply text_eqb_spec in En. cbn [andb].
      destruct (is_text (t "redis") (match assoc (t "driver") d with Some v => v | None => CNull end)) eqn:ER; [|reflexivity]. exfalso. apply NR. split; [exact En|apply RX; reflexivity].
Qed.
End Load.

(** ** Concrete cases *)
Definition ex_default : conf := [(t "extends", CList []); (t "name", CStr []); (t "databases", CList []); (t "variables", CDict []); (t "schema", CStr (t "$.*")); (t "states", CList [])].
Definition ex_home : conf :=
  [(t "timezone", CStr (t "UTC")); (t "encoding", CStr (t "utf-8")); (t "extends", CStr (t "base.json")); (t "executes", CList [CStr (t "a.sql"); CStr (t "b.sql")]);
   (t "databases", CList [CDict [(t "name", CStr (t "files")); (t "driver", CStr (t "csv")); (t "encoding", CStr (t "gbk"))]; CDict [(t "name", CStr (t "--")); (t "driver", CStr (t "redis"))]])].
Definition ex_cwd : conf := [(t "timezone", CStr (t "PRC")); (t "executes", CStr (t "c.sql"))].
Definition ex_base : conf := [(t "timezone", CStr (t "GMT")); (t "variables", CDict [(t "@x", COther 1)]); (t "executes", CList [CStr (t "base.sql")])].
Definition ex_content (n : text) : option conf :=
  if text_eqb n (t "/home/config.json") then Some ex_home else if text_eqb n (t "/cwd/config.json") then Some ex_cwd else if text_eqb n (t "base.json") then Some ex_base else None.
Definition ex_there (n : text) : bool := mem n [t "/home/config.json"; t "/cwd/config.json"; t "base.json"; t "a.sql"; t "/home/b.sql"; t "c.sql"; t "base.sql"].
Definition ex_home_of (n : text) : text := t "/home/" ++ n.
Definition ex_order : list text := [t "/home/config.json"; t "/home/config.yaml"; t "/cwd/config.json"; t "/cwd/config.yaml"].
Definition ex_load := load ex_default ex_content ex_there ex_home_of (CStr (t "syncany:1:")).

Lemma nodup_texts : forall l : list text, (fix ok l := match l with [] => true | x :: r => negb (mem x r) && ok r end) l = true -> NoDup l.
Proof.
  induction l as [|x l IH]; intro H; constructor; apply andb_prop in H; destruct H as [H1 H2].
  - intro I. apply mem_In in I. rewrite I in H1. discriminate H1.
  - apply IH, H2.
Qed.
Ltac prove_proper := split; [apply nodup_texts; reflexivity|split; [intros k I; cbn in I; repeat (destruct I as [<-|I]; [cbn; first [exact Coq.Init.Logic.I | apply nodup_texts; reflexivity]|]); destruct I|cbn]].
Example ex_default_proper : proper ex_default.
Proof. prove_proper. repeat split; constructor. Qed.
Example ex_default_extends : assoc (t "extends") ex_default = Some (CList []).
Proof. reflexivity. Qed.
Example ex_default_lists : forall k, k = t "states" \/ k = t "executes" -> match assoc k ex_default with None | Some (CList _) => True | _ => False end.
Proof. intros k [->| ->]; exact Coq.Init.Logic.I. Qed.
Example ex_files_proper : forall n f, ex_content n = Some f -> proper f /\ exists es, names_in (assoc (t "extends") f) es.
Proof.
  intros n f H. unfold ex_content in H. destruct (text_eqb n (t "/home/config.json")); [injection H as <-|destruct (text_eqb n (t "/cwd/config.json")); [injection H as <-|destruct (text_eqb n (t "base.json")); [injection H as <-|discriminate H]]].
  - split; [prove_proper|exists [t "base.json"], (t "base.json"); split; reflexivity].
    split; [|split; [apply nodup_texts; reflexivity|]]; repeat (constructor; try (apply nodup_texts; reflexivity)); eexists; eexists; split; reflexivity.
  - split; [prove_proper; exact Coq.Init.Logic.I|exists []; reflexivity].
  - split; [prove_proper; exact Coq.Init.Logic.I|exists []; reflexivity].
Qed.
Definition ex_loaded (o : option (res (conf * list text))) (path : list text) : option cval := match o with Some (Ok (c, _)) => read c path | _ => None end.
(** The working directory wins here, the extended file loses, and a variable of it is kept. *)
Example ex_settings : ex_loaded (ex_load 9 ex_order None ex_default) [t "timezone"] = Some (CStr (t "PRC")) /\ ex_loaded (ex_load 9 ex_order None ex_default) [t "variables"; t "@x"] = Some (COther 1) /\
  ex_loaded (ex_load 9 ex_order (Some [(t "timezone", CStr (t "EST"))]) ex_default) [t "timezone"] = Some (CStr (t "EST")).
Proof. vm_compute. auto. Qed.
Example ex_files : match ex_load 9 ex_order None ex_default with Some (Ok (_, fs)) => fs = [t "base.sql"; t "a.sql"; t "/home/b.sql"; t "c.sql"] | _ => False end.
Proof. vm_compute. reflexivity. Qed.
Example ex_databases : ex_loaded (ex_load 9 ex_order None ex_default) [t "databases"; t "-"; t "driver"] = Some (CStr (t "textline")) /\
  ex_loaded (ex_load 9 ex_order None ex_default) [t "databases"; t "--"; t "expire_seconds"] = Some (COther 900).
Proof. vm_compute. auto. Qed.
Example ex_chain : exists l, chains ex_content (filter ex_there ex_order) l /\ length l = 3.
Proof.
  exists ([settings ex_base; settings ex_home] ++ [settings ex_cwd] ++ []). split; [|reflexivity]. cbn.
  apply (chains_cons ex_content (t "/home/config.json") [t "/cwd/config.json"] [settings ex_base; settings ex_home] ([settings ex_cwd] ++ [])).
  - apply (chain_file ex_content (t "/home/config.json") ex_home [t "base.json"] ([settings ex_base] ++ [])); [reflexivity|exists (t "base.json"); auto|].
    constructor; [|constructor]. apply (chain_file ex_content (t "base.json") ex_base [] []); [reflexivity|reflexivity|constructor].
  - constructor; [|constructor]. apply (chain_file ex_content (t "/cwd/config.json") ex_cwd [] []); [reflexivity|reflexivity|constructor].
Qed.
(** Two files extending each other: the hypotheses of [circle_never_loaded]. *)
Definition ex_circle (n : text) : option conf :=
  if text_eqb n (t "/cwd/config.json") then Some [(t "extends", CList [CStr (t "other.json")])]
  else if text_eqb n (t "other.json") then Some [(t "extends", CList [CStr (t "/cwd/config.json")])] else None.
Example ex_circle_meets : clos_trans _ (extends ex_circle) (t "/cwd/config.json") (t "/cwd/config.json").
Proof.
  apply t_trans with (t "other.json"); apply t_step.
  - exists [(t "extends", CList [CStr (t "other.json")])], [t "other.json"]. repeat split. left. reflexivity.
  - exists [(t "extends", CList [CStr (t "/cwd/config.json")])], [t "/cwd/config.json"]. repeat split. left. reflexivity.
Qed.

(** *** C95: which of the home and the working directory wins depends on the order in which a Python set is iterated. *)
Theorem working_directory_wins_refuted : ~ (forall fuel order c' fs, Permutation order ex_order -> ex_load fuel order None ex_default = Some (Ok (c', fs)) ->
  read c' [t "timezone"] = Some (CStr (t "PRC"))).
Proof.
  intro H. pose (o := [t "/cwd/config.json"; t "/cwd/config.yaml"; t "/home/config.json"; t "/home/config.yaml"]).
  destruct (ex_load 9 o None ex_default) as [[[c' fs]|]|] eqn:E; [|vm_compute in E; discriminate E|vm_compute in E; discriminate E].
  assert (P : Permutation o ex_order).
  { change (Permutation ([t "/cwd/config.json"; t "/cwd/config.yaml"] ++ [t "/home/config.json"; t "/home/config.yaml"]) ([t "/home/config.json"; t "/home/config.yaml"] ++ [t "/cwd/config.json"; t "/cwd/config.yaml"])).
    apply Permutation_app_comm. }
  specialize (H 9 o c' fs P E). assert (R : ex_loaded (ex_load 9 o None ex_default) [t "timezone"] = Some (CStr (t "UTC"))) by (vm_compute; reflexivity).
  rewrite E in R. cbn [ex_loaded] in R. rewrite R in H. discriminate H.
Qed.
(** *** C99: an encoding given for one database is replaced by the global one. *)
Theorem own_formats_win_refuted : ~ (forall fuel c' fs, ex_load fuel ex_order None ex_default = Some (Ok (c', fs)) -> read c' [t "databases"; t "files"; t "encoding"] = Some (CStr (t "gbk"))).
Proof.
  intro H. destruct (ex_load 9 ex_order None ex_default) as [[[c' fs]|]|] eqn:E; [|vm_compute in E; discriminate E|vm_compute in E; discriminate E].
  specialize (H 9 c' fs E). assert (R : ex_loaded (ex_load 9 ex_order None ex_default) [t "databases"; t "files"; t "encoding"] = Some (CStr (t "utf-8"))) by (vm_compute; reflexivity).
  rewrite E in R. cbn [ex_loaded] in R. rewrite R in H. discriminate H.
Qed.

Print Assumptions settings_latest.
Print Assumptions initial_files_in_order.
Print Assumptions missing_initial_file.
Print Assumptions circle_never_loaded.
Print Assumptions circle_reached_never_loaded.
Print Assumptions loading_ends.
Print Assumptions databases_exactly.
Print Assumptions agreed_settings_in_any_order.
Print Assumptions working_directory_wins_refuted.
Print Assumptions own_formats_win_refuted.
Print Assumptions merge_items.
Print Assumptions merge_pipelines.

(** C29/C30: the SET statement, virtual views, and the overlay for every history. *)
From Verif Require Import Base Agg_Model Utils_Model Json_Proofs Config_Model Config_Spec Config_Props Config_Merge Config_Session.
From Coq Require Import Lia.
Local Open Scope nat_scope.

(** ** Keys of a configuration stay distinct *)
Lemma dict_set_keys : forall A k (v : A) d, map fst (dict_set k v d) = if mem k (map fst d) then map fst d else map fst d ++ [k].
Proof.
  intros A k v d. induction d as [|[k' v'] d IH]; [reflexivity|]. cbn [dict_set map fst]. unfold mem. cbn [existsb].
  destruct (text_eqb k k') eqn:E; [reflexivity|]. cbn [map fst orb]. rewrite IH. unfold mem. destruct (existsb (text_eqb k) (map fst d)); reflexivity.
Qed.
Lemma NoDup_snoc : forall A (l : list A) x, NoDup l -> ~ In x l -> NoDup (l ++ [x]).
Proof. intros A l x N I. rewrite <- (rev_involutive (l ++ [x])). apply NoDup_rev. rewrite rev_app_distr. cbn. constructor; [rewrite <- in_rev; exact I|apply NoDup_rev, N]. Qed.
Lemma dict_set_nodup : forall A k (v : A) d, NoDup (map fst d) -> NoDup (map fst (dict_set k v d)).
Proof.
  intros A k v d N. rewrite dict_set_keys. destruct (mem k (map fst d)) eqn:E; [exact N|]. apply NoDup_snoc; [exact N|]. intro I. apply mem_In in I. congruence.
Qed.
Lemma dict_del_nodup : forall A k (d : list (text * A)), NoDup (map fst d) -> NoDup (map fst (dict_del k d)).
Proof.
  intros A k d N. unfold dict_del. induction d as [|[k' v'] d IH]; [constructor|]. inversion N as [|x y Nin N']; subst. cbn [filter fst].
  destruct (negb (text_eqb k k')); [|exact (IH N')]. cbn [map fst]. constructor; [|exact (IH N')]. intro I. apply Nin.
  apply in_map_iff in I. destruct I as ([a b] & E & I). apply filter_In in I. apply in_map_iff. exists (a, b). split; [exact E|apply I].
Qed.
Lemma merge_key_nodup : forall c k v c', NoDup (map fst c) -> merge_key c k v = Ok c' -> NoDup (map fst c').
Proof.
  intros c k v c' N E. unfold merge_key in E. revert E.
  repeat match goal with
  | |- Ok _ = Ok _ -> _ => intro E; injection E as <-; solve [exact N|apply dict_set_nodup; exact N]
  | |- Err _ = Ok _ -> _ => discriminate
  | |- context [bind ?a _] => destruct a; cbn [bind]
  | |- (match ?a with _ => _ end) = _ -> _ => destruct a
  | |- (if ?a then _ else _) = _ -> _ => destruct a
  end.
Qed.
Lemma merge_config_nodup : forall v c c', NoDup (map fst c) -> merge_config c v = Ok c' -> NoDup (map fst c').
Proof.
  induction v as [|[k x] v IH]; intros c c' N E; cbn [merge_config] in E; [injection E as <-; exact N|].
  destruct (merge_key c k x) as [c1|] eqn:M; [|discriminate]. cbn [bind] in E. eapply IH; [|exact E]. eapply merge_key_nodup; eauto.
Qed.

Section Sets.
Variable json : text -> option cval.
Variable parse_view : text -> text * cval.
Variable default : conf.
Notation set := (set json parse_view).
Notation step := (step json parse_view default).
Notation run := (run json parse_view default).
Notation set_in := (set_in json parse_view).
Notation read_config := (read_config default).
Notation set_config := (set_config json parse_view).

Lemma set_nodup : forall k v c c', NoDup (map fst c) -> set k v c = Ok c' -> NoDup (map fst c').
Proof.
  intros [|k [|n rest]] v c c' N E; cbn [Config_Model.set] in E; [injection E as <-; exact N| |].
  - destruct (is_null v); injection E as <-; [apply dict_del_nodup|apply dict_set_nodup]; exact N.
  - destruct (text_eqb k (t "databases")).
    + destruct (assoc k c) as [[| | | |l]|]; try discriminate. destruct (update_named n _ _ l); [|discriminate]. injection E as <-. apply dict_set_nodup; exact N.
    + destruct (mem k literal_sections || mem k json_sections); [|injection E as <-; exact N].
      destruct (assoc k c) as [[| | |d|]|]; try discriminate; injection E as <-; apply dict_set_nodup; exact N.
Qed.
Lemma get_own_keys : forall fuel tr i, Forall (fun nd => NoDup (map fst (own nd))) tr -> Forall (fun nd => NoDup (map fst (own nd))) (fst (get default fuel tr i)).
Proof.
  induction fuel as [|fuel IH]; intros tr i H; [exact H|]. cbn [get]. destruct (nth_error tr i) as [nd|] eqn:E; [|exact H]. destruct i as [|i]; [exact H|].
  destruct (cache nd); [exact H|]. specialize (IH tr (parent nd) H). destruct (get default fuel tr (parent nd)) as [tr' [pc|]]; [|exact IH]. cbn [fst] in IH.
  destruct (merge_config default pc) as [c1|]; [|exact IH]. cbn [bind]. destruct (merge_config c1 (own nd)) as [c|]; [|exact IH]. cbn [fst].
  assert (Nn : NoDup (map fst (own nd))) by (rewrite Forall_forall in H; apply H; eapply nth_error_In; eauto).
  clear - IH Nn. revert IH. generalize (S i) as m. induction tr' as [|a tr' IHt]; intros [|m] F; cbn [set_nth]; try constructor; inversion F; subst; auto.
Qed.
Lemma set_nth_forall : forall A (P : A -> Prop) l i x, Forall P l -> P x -> Forall P (set_nth l i x).
Proof. induction l as [|a l IH]; intros [|i] x F Px; cbn; try constructor; inversion F; subst; auto. Qed.
Lemma run_own_keys : forall h tr, NoDup (map fst default) -> Forall (fun nd => NoDup (map fst (own nd))) tr -> Forall (fun nd => NoDup (map fst (own nd))) (run tr h).
Proof.
  intro h. induction h as [|o h IH]; intros tr Nd F; [exact F|]. unfold Config_Model.run. cbn [fold_left]. apply IH; [exact Nd|]. destruct o as [i|i k v|p]; cbn [Config_Model.step].
  - apply get_own_keys; exact F.
  - unfold Config_Model.set_in. destruct (nth_error tr i) as [nd|] eqn:E; [|exact F]. destruct (set k v (own nd)) as [c|] eqn:S; [|exact F]. cbn [bind].
    apply set_nth_forall; [exact F|]. cbn [own]. eapply set_nodup; [|exact S]. rewrite Forall_forall in F. apply F. eapply nth_error_In; eauto.
  - destruct (p <? length tr); [|exact F]. apply Forall_app. split; [exact F|constructor; [exact Nd|constructor]].
Qed.
Lemma current_nodup : forall tr i c, NoDup (map fst default) -> Forall (fun nd => NoDup (map fst (own nd))) tr -> current default tr i c -> NoDup (map fst c).
Proof.
  intros tr i c Nd F H. inversion H as [nd E|i' nd pc c1 c' E Hp M1 M2]; subst.
  - rewrite Forall_forall in F. apply F. eapply nth_error_In; eauto.
  - eapply merge_config_nodup; [|exact M2]. eapply merge_config_nodup; [|exact M1]. exact Nd.
Qed.

(** C30: in every history in which nothing is changed after something created from it was read, a session reads its own
    value of a plain setting where it has one, and otherwise what its parent reads; the defaults come last. *)
Theorem session_overlay : forall c0 h i nd c k p, NoDup (map fst default) -> NoDup (map fst c0) -> safe h -> on_existing h -> plain_key k ->
  nth_error (run (start c0) h) (S i) = Some nd -> read_config (run (start c0) h) (S i) = Ok c ->
  exists pc, read_config (run (start c0) h) (parent nd) = Ok pc /\
    read c (k :: p) = match assoc k (own nd) with Some x => look x p | None =>
                      match assoc k pc with Some x => look x p | None => read default (k :: p) end end.
Proof.
  intros c0 h i nd c k p Nd N0 Sf Ex Pk E R. destruct (history_inv json parse_view default c0 h Sf Ex) as (W & V & P & _).
  assert (F : Forall (fun nd => NoDup (map fst (own nd))) (run (start c0) h)) by (apply run_own_keys; [exact Nd|repeat constructor; exact N0]).
  assert (L : S i < length (run (start c0) h)) by (apply nth_error_Some; congruence).
  assert (LP : length (run (start c0) h) = length (parents_of h)) by (rewrite <- P, map_length; reflexivity).
  apply (session_reads_current json parse_view default c0 h (S i) c Sf Ex ltac:(lia)) in R.
  assert (Nn : NoDup (map fst (own nd))) by (rewrite Forall_forall in F; apply F; eapply nth_error_In; eauto).
  destruct (current_overlay default _ i nd c k p Nn E Pk R) as (pc & Hp & Q). exists pc. split; [|apply Q; eapply current_nodup; eauto].
  apply (session_reads_current json parse_view default c0 h (parent nd) pc Sf Ex); [|exact Hp]. pose proof (W i nd E). lia.
Qed.
(** ... and of one entry of a section (imports, sources, defines, variables, options, ...). *)
Theorem session_overlay_section : forall c0 h i nd c k n dd dw dp pc, NoDup (map fst default) -> NoDup (map fst c0) -> safe h -> on_existing h -> In k merge_sections ->
  nth_error (run (start c0) h) (S i) = Some nd -> read_config (run (start c0) h) (S i) = Ok c -> read_config (run (start c0) h) (parent nd) = Ok pc ->
  assoc k default = Some (CDict dd) -> assoc k (own nd) = Some (CDict dw) -> NoDup (map fst dw) -> assoc k pc = Some (CDict dp) -> NoDup (map fst dp) ->
  read c [k; n] = match assoc n dw with Some x => Some x | None => match assoc n dp with Some x => Some x | None => assoc n dd end end.
Proof.
  intros c0 h i nd c k n dd dw dp pc Nd N0 Sf Ex Ik E R Rp Hd Hw Nw Hp Np. destruct (history_inv json parse_view default c0 h Sf Ex) as (W & V & P & _).
  assert (F : Forall (fun nd => NoDup (map fst (own nd))) (run (start c0) h)) by (apply run_own_keys; [exact Nd|repeat constructor; exact N0]).
  assert (L : S i < length (run (start c0) h)) by (apply nth_error_Some; congruence).
  assert (LP : length (run (start c0) h) = length (parents_of h)) by (rewrite <- P, map_length; reflexivity).
  apply (session_reads_current json parse_view default c0 h (S i) c Sf Ex ltac:(lia)) in R.
  apply (session_reads_current json parse_view default c0 h (parent nd) pc Sf Ex) in Rp; [|pose proof (W i nd E); lia].
  assert (Nn : NoDup (map fst (own nd))) by (rewrite Forall_forall in F; apply F; eapply nth_error_In; eauto).
  destruct (current_overlay_section default _ i nd c k n dd dw Nn E Ik R Hd Hw Nw) as (pc' & Hp' & Q). assert (pc' = pc) as -> by (eapply current_det; eauto).
  apply Q; [eapply current_nodup; eauto|exact Hp|exact Np].
Qed.

(** ** Virtual views *)
Definition views_ok (db : conf) : Prop := assoc (t "virtual_views") db = None \/ exists l, assoc (t "virtual_views") db = Some (CList l) /\ Forall record_ok l.
(** SET @databases.<n>.virtual_views.<v> = '<query>' *)
Theorem set_view_query : forall n v q query args c d, databases_ok c -> databases_unique c -> read c [t "databases"; n] = Some (CDict d) -> views_ok d -> parse_view q = (query, args) ->
  exists c', set [t "databases"; n; t "virtual_views"; v] (CStr q) c = Ok c' /\
    read c' [t "databases"; n; t "virtual_views"; v; t "query"] = Some (CStr query) /\ read c' [t "databases"; n; t "virtual_views"; v; t "args"] = Some args /\
    (forall u p, u <> v -> read c' (t "databases" :: n :: t "virtual_views" :: u :: p) = read c (t "databases" :: n :: t "virtual_views" :: u :: p)) /\
    (forall f p, f <> t "virtual_views" -> read c' (t "databases" :: n :: f :: p) = read c (t "databases" :: n :: f :: p)) /\
    databases_ok c' /\ databases_unique c' /\
    (forall p, apart [t "databases"; n] p -> p <> [t "databases"] -> read c' p = read c p).
Proof.
  intros n v q query args c d O U R VO PV.
  set (g := set_view json parse_view [] (CStr q)). set (fr := [(t_name, CStr v); (t "query", CStr []); (t "args", CList [])]).
  assert (G : forall d, g d = Ok (Some (dict_set (t "args") args (dict_set (t "query") (CStr query) d)))) by (intro d'; unfold g; cbn [set_view]; rewrite PV; reflexivity).
  assert (KN : forall a b, g a = Ok (Some b) -> assoc t_name a = Some (CStr v) -> assoc t_name b = Some (CStr v)).
  { intros a b E N. rewrite G in E. injection E as <-. rewrite !assoc_dict_set. change (text_eqb t_name (t "args")) with false. change (text_eqb t_name (t "query")) with false. exact N. }
  assert (exists l0, Forall record_ok l0 /\ (match assoc (t "virtual_views") d with None => Ok [] | Some (CList l) => Ok l | Some _ => Err TypeError end) = Ok l0 /\
    forall u p, look (CList l0) (u :: p) = match assoc (t "virtual_views") d with Some w => look w (u :: p) | None => None end) as (l0 & F0 & E0 & Lk).
  { destruct VO as [VO|(l & VO & F)]; rewrite VO; [exists []|exists l]; repeat split; auto. }
  assert (exists w0, find (has_name v) l0 = Some (CDict w0) \/ find (has_name v) l0 = None /\ w0 = fr) as (w0 & D0).
  { destruct (find (has_name v) l0) as [e|] eqn:Fe; [|exists fr; auto]. destruct (find_has_name_in _ _ _ Fe) as (w & -> & _). exists w. auto. }
  destruct (update_named_spec v fr g l0 F0 KN eq_refl w0 D0 _ (G w0)) as (l' & Up & Fl & Fv & Fo & _).
  assert (SD : set_database json parse_view n [t "virtual_views"; v] (CStr q) d = Ok (Some (dict_set (t "virtual_views") (CList l') d))).
  { unfold set_database. rewrite text_eqb_refl, E0. unfold bind at 1. change (update_named v _ _ l0) with (update_named v fr g l0). rewrite Up. reflexivity. }
  destruct (set_databases json parse_view n [t "virtual_views"; v] (CStr q) c d _ O U (or_introl R) SD) as (c' & E & Rd & O' & U' & Fr).
  - intros a b E N. unfold set_database in E. rewrite text_eqb_refl in E. destruct (match assoc (t "virtual_views") a with None => _ | Some _ => _ end); [|discriminate].
    unfold bind at 1 in E. destruct (update_named v _ _ a0); [|discriminate]. cbn [bind] in E. injection E as <-. rewrite assoc_dict_set.
    change (text_eqb t_name (t "virtual_views")) with false. exact N.
  - exists c'. split; [exact E|].
    assert (Rp : forall p, read c' (t "databases" :: n :: p) = look (CDict (dict_set (t "virtual_views") (CList l') d)) p).
    { intro p. unfold read in *. cbn [look] in *. destruct (assoc (t "databases") c') as [[| | |z|z]|]; try discriminate Rd; cbn [look] in *.
      - destruct (assoc n z); [injection Rd as ->; reflexivity|discriminate].
      - destruct (find (has_name n) z); [injection Rd as ->; reflexivity|discriminate]. }
    assert (Rc : forall p, read c (t "databases" :: n :: p) = look (CDict d) p).
    { intro p. unfold read in *. cbn [look] in *. destruct (assoc (t "databases") c) as [[| | |z|z]|]; try discriminate R; cbn [look] in *.
      - destruct (assoc n z); [injection R as ->; reflexivity|discriminate].
      - destruct (find (has_name n) z); [injection R as ->; reflexivity|discriminate]. }
    rewrite !Rp. split; [|split; [|split; [|split; [|auto]]]].
    + cbn [look]. rewrite assoc_dict_set, text_eqb_refl. cbn [look]. rewrite Fv. cbn [look]. rewrite !assoc_dict_set. change (text_eqb (t "query") (t "args")) with false. rewrite text_eqb_refl. reflexivity.
    + cbn [look]. rewrite assoc_dict_set, text_eqb_refl. cbn [look]. rewrite Fv. cbn [look]. rewrite !assoc_dict_set, text_eqb_refl. reflexivity.
    + intros u p Nu. rewrite Rp, Rc. specialize (Lk u p). cbn [look] in *. rewrite assoc_dict_set, text_eqb_refl. cbn [look]. rewrite Fo by exact Nu. exact Lk.
    + intros f p Nf. rewrite Rp, Rc. cbn [look]. rewrite assoc_dict_set. assert (text_eqb f (t "virtual_views") = false) as -> by (apply text_eqb_neq; exact Nf). reflexivity.
Qed.

(** ** The SET statement *)
Lemma split_dot_app : forall a b, ~ In 46%N a -> split_on 46 (a ++ 46%N :: b) = a :: split_on 46 b.
Proof.
  induction a as [|c a IH]; intros b N; cbn [app split_on]; [reflexivity|]. assert ((c =? 46)%N = false) as -> by (apply N.eqb_neq; intros ->; apply N; left; reflexivity).
  rewrite IH by (intro I; apply N; right; exact I). reflexivity.
Qed.
Definition routed := [t "databases"; t "imports"; t "sources"; t "defines"; t "variables"; t "options"; t "caches"].
(** SET @<section>.<rest> = v addresses <section>.<rest> of the session. *)
Theorem set_routes_section : forall s rest, In s routed -> set_target (t "@" ++ s ++ t "." ++ rest) = (false, TConf (s ++ t "." ++ rest)).
Proof.
  intros s rest I. cbn in I. repeat (destruct I as [<-|I]; [unfold set_target; cbn; reflexivity|]). destruct I.
Qed.
(** SET @config.<key> = v addresses <key> of the session. *)
Lemma strip_no_blank : forall sp s, Forall (fun c => sp c = false) s -> strip sp s = s.
Proof.
  intros sp s F. assert (H : forall l, Forall (fun c => sp c = false) l -> lstrip sp l = l) by (intros [|c l] X; [reflexivity|inversion X as [|a b Hc _]; subst; cbn; rewrite Hc; reflexivity]).
  unfold strip. rewrite (H s F), H by (apply Forall_rev; exact F). apply rev_involutive.
Qed.
Theorem set_routes_config : forall key, Forall (fun c => blank c = false) key -> set_target (t "@config." ++ key) = (false, TConf key).
Proof.
  intros key F. unfold set_target. cbv zeta. change (t "@config." ++ key) with (t "@config" ++ 46%N :: key).
  change (firstn 6 (t "@config" ++ 46%N :: key)) with (t "@confi"). change (text_eqb (map lower1 (t "@confi")) (t "global")) with false. cbn iota.
  rewrite split_dot_app by (cbn; intuition discriminate).
  change (hd [] (t "@config" :: split_on 46 key)) with (t "@config"). change (skipn 1 (t "@config")) with (t "config").
  change (mem (t "config") [t "databases"; t "imports"; t "sources"; t "defines"; t "variables"; t "options"; t "caches"]) with false. change (text_eqb (t "config") (t "virtual_views")) with false. cbn iota.
  change (firstn 7 (t "@config" ++ 46%N :: key)) with (t "@config"). rewrite text_eqb_refl. change (skipn 8 (t "@config" ++ 46%N :: key)) with key. rewrite strip_no_blank by exact F. reflexivity.
Qed.
(** A session-level SET is the update of that session's configuration; the others keep their own settings. *)
Theorem set_session_effect : forall tr i key v tr', set_config tr i key v false = (tr', Ok tt) ->
  exists nd c, nth_error tr i = Some nd /\ set (split_on 46 key) v (own nd) = Ok c /\ nth_error tr' i = Some (mknode c (parent nd) None) /\
    forall j, j <> i -> nth_error tr' j = nth_error tr j.
Proof.
  intros tr i key v tr' E. unfold Config_Model.set_config, Config_Model.set_in in E. destruct (nth_error tr i) as [nd|] eqn:X; [|discriminate].
  destruct (set (split_on 46 key) v (own nd)) as [c|] eqn:S; [|discriminate]. cbn [bind] in E. injection E as <-. exists nd, c. rewrite nth_set_nth, Nat.eqb_refl, X.
  repeat split; auto. intros j N. rewrite nth_set_nth. assert ((i =? j) = false) as -> by (apply Nat.eqb_neq; congruence). reflexivity.
Qed.
(** SET GLOBAL of a configuration key fails always; a key that can be set is changed all the same. *)
Theorem set_global_refuted : forall tr i key v, snd (set_config tr i key v true) <> Ok tt.
Proof. intros. unfold Config_Model.set_config. destruct (set_in tr 0 (split_on 46 key) v); discriminate. Qed.
Theorem set_global_partial_effect : forall tr i key v nd c, nth_error tr 0 = Some nd -> set (split_on 46 key) v (own nd) = Ok c ->
  exists tr', set_config tr i key v true = (tr', Err AttributeError) /\ nth_error tr' 0 = Some (mknode c (parent nd) None).
Proof. intros tr i key v nd c E S. unfold Config_Model.set_config, Config_Model.set_in. rewrite E, S. cbn [bind]. eexists. split; [reflexivity|]. rewrite nth_set_nth, E. reflexivity. Qed.
Lemma update_named_other : forall n fresh f l l', Forall record_ok l ->
  (forall d o, f d = Ok o -> assoc t_name d = Some (CStr n) -> exists d', o = Some d' /\ assoc t_name d' = Some (CStr n)) -> assoc t_name fresh = Some (CStr n) ->
  update_named n fresh f l = Ok l' -> forall m, m <> n -> find (has_name m) l' = find (has_name m) l.
Proof.
  intros n fresh f l l' F KN FN E m Nm. assert (X : text_eqb n m = false) by (apply text_eqb_neq; congruence). revert l' E. induction F as [|e l (d & k & -> & Hk) F IH]; intros l' E; cbn [update_named] in E.
  - destruct (f fresh) as [o|] eqn:Ef; [|discriminate]. destruct (KN _ _ Ef FN) as (d' & -> & N'). cbn [bind] in E. injection E as <-. cbn [find]. rewrite (has_name_rec d' n m N'), X. reflexivity.
  - cbn [named] in E. unfold t_name in E. rewrite Hk in E. cbn [bind] in E. destruct (text_eqb k n) eqn:Q.
    + apply text_eqb_spec in Q. subst k. destruct (f d) as [o|] eqn:Ef; [|discriminate]. destruct (KN _ _ Ef Hk) as (d' & -> & N'). cbn [bind] in E. injection E as <-.
      cbn [find]. rewrite (has_name_rec d' n m N'), (has_name_rec d n m Hk), X. reflexivity.
    + destruct (update_named n fresh f l) as [r|]; [|discriminate]. cbn [bind] in E. injection E as <-. cbn [find]. destruct (has_name m (CDict d)); [reflexivity|]. apply IH. reflexivity.
Qed.
(** SET @virtual_views.<rest> addresses a database named virtual_views: no view of any other database changes. *)
Theorem set_virtual_views_refuted : forall rest v c c', databases_ok c -> databases_unique c ->
  (exists key, set_target (t "@virtual_views." ++ rest) = (false, TConf key) /\ set (split_on 46 key) v c = Ok c') ->
  hd [] (split_on 46 rest) <> t "name" ->
  forall n p, n <> t "virtual_views" -> read c' (t "databases" :: n :: p) = read c (t "databases" :: n :: p).
Proof.
  intros rest v c c' (l & L & F) U (key & T & E) Nf0 n p Nn.
  assert (key = t "databases" ++ 46%N :: t "virtual_views" ++ 46%N :: rest) as ->.
  { unfold set_target in T. cbv zeta in T. change (t "@virtual_views." ++ rest) with (t "@virtual_views" ++ 46%N :: rest) in T.
    change (firstn 6 (t "@virtual_views" ++ 46%N :: rest)) with (t "@virtu") in T. change (text_eqb (map lower1 (t "@virtu")) (t "global")) with false in T. cbn iota in T.
    rewrite split_dot_app in T by (cbn; intuition discriminate).
    change (hd [] (t "@virtual_views" :: split_on 46 rest)) with (t "@virtual_views") in T. change (skipn 1 (t "@virtual_views")) with (t "virtual_views") in T.
    change (mem (t "virtual_views") [t "databases"; t "imports"; t "sources"; t "defines"; t "variables"; t "options"; t "caches"]) with false in T.
    rewrite text_eqb_refl in T. cbn iota in T. assert (key = t "databases." ++ skipn 1 (t "@virtual_views" ++ 46%N :: rest)) as -> by congruence. reflexivity. }
  rewrite !split_dot_app in E by (cbn; intuition discriminate). unfold Config_Model.set in E. rewrite text_eqb_refl, L in E.
  destruct (update_named (t "virtual_views") _ _ l) as [l'|] eqn:Up; [|discriminate]. cbn [bind] in E. assert (c' = dict_set (t "databases") (CList l') c) as -> by congruence. clear E.
  unfold read. cbn [look]. rewrite assoc_dict_set, text_eqb_refl, L. cbn [look].
  enough (find (has_name n) l' = find (has_name n) l) as -> by reflexivity.
  apply (update_named_other (t "virtual_views") [(t_name, CStr (t "virtual_views"))] _ l l' F) with (2 := eq_refl) (3 := Up) (4 := Nn).
  intros d o Ed Hd. destruct (split_on 46 rest) as [|f r] eqn:Sp; [destruct rest as [|z rest]; cbn in Sp; [discriminate|]; destruct (z =? 46)%N; [discriminate|]; destruct (split_on 46 rest); discriminate|].
  assert (Nf : text_eqb t_name f = false) by (apply text_eqb_neq; intros <-; apply Nf0; reflexivity).
  unfold set_database in Ed. destruct (text_eqb f (t "virtual_views")).
  - destruct (match assoc f d with None => _ | Some _ => _ end) as [vs|]; [|discriminate]. unfold bind at 1 in Ed. destruct r as [|w r]; [discriminate|].
    destruct (update_named w _ _ vs) as [vs'|]; [|discriminate]. cbn [bind] in Ed. injection Ed as <-. eexists. split; [reflexivity|]. rewrite assoc_dict_set, Nf. exact Hd.
  - destruct (is_null v); [injection Ed as <-; eexists; split; [reflexivity|]; rewrite assoc_del, Nf; exact Hd|].
    destruct (loads json v) as [w|]; injection Ed as <-; eexists; (split; [reflexivity|]); [rewrite assoc_dict_set, Nf|]; exact Hd.
Qed.

(** Caches are a list of records in the configuration, but SET treats them as a dict: where there is such a list, every SET
    of a cache fails. *)
Theorem set_cache_refuted : forall n rest v c l, assoc (t "caches") c = Some (CList l) -> set (t "caches" :: n :: rest) v c = Err TypeError.
Proof. intros n rest v c l E. unfold Config_Model.set. change (text_eqb (t "caches") (t "databases")) with false. cbn iota. change (mem (t "caches") literal_sections || mem (t "caches") json_sections) with true. rewrite E. reflexivity. Qed.
End Sets.

(** ** The hypotheses are met *)
Definition ex_json (s : text) : option cval := if text_eqb s (t "7") then Some (COther 7) else None.
Definition ex_view (q : text) : text * cval := (q, CList []).
Definition ex_default : conf := [(t "databases", CList []); (t "options", CDict []); (t "limit", COther 0)].
Definition ex_global : conf := [(t "databases", CList [CDict [(t "name", CStr (t "m")); (t "driver", CStr (t "mysql"))]]); (t "options", CDict [(t "a", COther 1)]); (t "limit", COther 5); (t "tz", CStr (t "utc"))].
Definition ex_history : list cop := [OSession 0; OSet 0 [t "tz"] (CStr (t "cet")); OSession 1; OSet 1 [t "options"; t "b"] (CStr (t "7")); ORead 2; OSet 2 [t "tz"] (CStr (t "est")); ORead 2].
Lemma ex_keys : NoDup (map fst ex_default) /\ NoDup (map fst ex_global).
Proof. split; cbn; repeat constructor; cbn; intuition discriminate. Qed.
Lemma cons_app_cases : forall A (o : A) h h1 x h2, o :: h = h1 ++ x :: h2 -> (h1 = [] /\ o = x /\ h = h2) \/ exists g, h1 = o :: g /\ h = g ++ x :: h2.
Proof. intros A o h [|y h1] x h2 E; cbn in E; injection E as E1 E2; [left; auto|right; exists h1; subst; auto]. Qed.
Example ex_safe : safe ex_history /\ on_existing ex_history.
Proof.
  split.
  - intros h1 h2 i k v E j I D. unfold ex_history in E.
    repeat (apply cons_app_cases in E; destruct E as [(-> & E & _)|(g & -> & E)];
      [try discriminate E; injection E as <- <- <-; cbn in I; repeat (destruct I as [I|I]; try discriminate I); try contradiction; injection I as <-;
       inversion D as [z Ez|z q Ez D']; subst; cbn in Ez; try discriminate Ez; injection Ez as <-; inversion D' as [z Ez|z q Ez D'']; subst; cbn in Ez; try discriminate Ez;
       injection Ez as <-; inversion D''|]; rename g into h1).
    destruct h1; discriminate E.
  - intros h1 h2 j E. unfold ex_history in E.
    repeat (apply cons_app_cases in E; destruct E as [(-> & E & _)|(g & -> & E)]; [try discriminate E; injection E as <-; cbn; lia|]; rename g into h1).
    destruct h1; discriminate E.
Qed.
(** In this history the second-level session reads its own time zone, the first-level session the global one, and both
    the option of the first-level session; the limit, which has a default, is not inherited. *)
Example ex_reads : exists c1 c2, read_config ex_default (run ex_json ex_view ex_default (start ex_global) ex_history) 1 = Ok c1 /\
  read_config ex_default (run ex_json ex_view ex_default (start ex_global) ex_history) 2 = Ok c2 /\
  read c1 [t "tz"] = Some (CStr (t "cet")) /\ read c2 [t "tz"] = Some (CStr (t "est")) /\
  read c2 [t "options"; t "b"] = Some (COther 7) /\ read c2 [t "options"; t "a"] = Some (COther 1) /\
  read c2 [t "databases"; t "m"; t "driver"] = Some (CStr (t "mysql")) /\
  read c2 [t "limit"] = Some (COther 0).
Proof. eexists _, _. repeat split; reflexivity. Qed.
(** The stale read: session 1 is read, the global setting changes, session 1 still reads the old value. *)
Example ex_stale : let tr := run ex_json ex_view ex_default (start ex_global) [OSession 0; ORead 1; OSet 0 [t "tz"] (CStr (t "cet"))] in
  exists c, read_config ex_default tr 1 = Ok c /\ read c [t "tz"] = Some (CStr (t "utc")) /\ exists nd, nth_error tr 0 = Some nd /\ read (own nd) [t "tz"] = Some (CStr (t "cet")).
Proof. cbn. eexists. split; [reflexivity|]. split; [reflexivity|]. eexists. split; reflexivity. Qed.
Example ex_databases : databases_ok ex_global /\ databases_unique ex_global /\ read ex_global [t "databases"; t "m"] = Some (CDict [(t "name", CStr (t "m")); (t "driver", CStr (t "mysql"))]) /\
  views_ok [(t "name", CStr (t "m")); (t "driver", CStr (t "mysql"))].
Proof.
  split; [eexists; split; [reflexivity|]; repeat constructor; eexists _, _; split; reflexivity|]. split; [intros l E; cbn in E; injection E as <-; cbn; repeat constructor; cbn; tauto|].
  split; [reflexivity|left; reflexivity].
Qed.
Example ex_plain : plain_key (t "tz") /\ plain_key (t "limit").
Proof. split; intro I; cbn in I; intuition discriminate. Qed.

Print Assumptions set_top.
Print Assumptions set_top_null.
Print Assumptions set_section.
Print Assumptions set_section_null.
Print Assumptions set_database_field.
Print Assumptions set_database_null.
Print Assumptions set_view_query.
Print Assumptions merge_plain.
Print Assumptions merge_section.
Print Assumptions merge_section_one_side.
Print Assumptions merge_databases.
Print Assumptions database_plain_value_refuted.
Print Assumptions database_bad_json_refuted.
Print Assumptions unknown_section_refuted.
Print Assumptions database_rename_refuted.
Print Assumptions set_cache_refuted.
Print Assumptions set_virtual_views_refuted.
Print Assumptions set_routes_section.
Print Assumptions set_routes_config.
Print Assumptions set_session_effect.
Print Assumptions set_global_refuted.
Print Assumptions set_global_partial_effect.
Print Assumptions session_reads_current.
Print Assumptions session_overlay.
Print Assumptions session_overlay_section.
Print Assumptions session_stale_refuted.
Print Assumptions session_default_masks_refuted.

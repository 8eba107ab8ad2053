(** C30: what a session reads, for every history of reads, writes and new sessions. *)
From Verif Require Import Base Agg_Model Utils_Model Json_Proofs Config_Model Config_Spec Config_Props Config_Merge.
From Coq Require Import Lia.
Local Open Scope nat_scope.

Section Sessions.
Variable json : text -> option cval.
Variable parse_view : text -> text * cval.
Variable default : conf.
Notation set := (set json parse_view).
Notation get := (get default).
Notation step := (step json parse_view default).
Notation run := (run json parse_view default).
Notation set_in := (set_in json parse_view).
Notation read_config := (read_config default).

(** Specification. The present value of configuration [i]: the global settings, or the parent's present value over
    the defaults and the session's own settings over both. No caches. *)
Inductive current (tr : tree) : nat -> conf -> Prop :=
| cur_global : forall nd, nth_error tr 0 = Some nd -> current tr 0 (own nd)
| cur_session : forall i nd pc c1 c, nth_error tr (S i) = Some nd -> current tr (parent nd) pc ->
    merge_config default pc = Ok c1 -> merge_config c1 (own nd) = Ok c -> current tr (S i) c.
(** [j] was created, directly or not, from [i]. *)
Inductive below (tr : tree) (i : nat) : nat -> Prop :=
| below_child : forall j nd, nth_error tr (S j) = Some nd -> parent nd = i -> below tr i (S j)
| below_deep : forall j nd, nth_error tr (S j) = Some nd -> below tr i (parent nd) -> below tr i (S j).

Definition wf (tr : tree) : Prop := forall i nd, nth_error tr (S i) = Some nd -> parent nd < S i.
Definition valid (tr : tree) : Prop := forall i nd c, nth_error tr (S i) = Some nd -> cache nd = Some c -> current tr (S i) c.
(** Same settings and parents; only caches differ. *)
Definition same (tr tr' : tree) : Prop := length tr = length tr' /\
  forall i nd nd', nth_error tr i = Some nd -> nth_error tr' i = Some nd' -> own nd = own nd' /\ parent nd = parent nd'.

Lemma set_nth_length : forall A (l : list A) i x, length (set_nth l i x) = length l.
Proof. induction l as [|a l IH]; intros [|i] x; cbn; auto. Qed.
Lemma nth_set_nth : forall A (l : list A) i j x, nth_error (set_nth l i x) j = if i =? j then match nth_error l i with Some _ => Some x | None => None end else nth_error l j.
Proof.
  induction l as [|a l IH]; intros [|i] [|j] x; cbn [set_nth nth_error Nat.eqb]; try reflexivity; [|apply IH].
  destruct (i =? j); [reflexivity|]. destruct j; reflexivity.
Qed.
Lemma same_refl : forall tr, same tr tr.
Proof. intro tr. split; [reflexivity|]. intros i a b E1 E2. rewrite E1 in E2. injection E2 as ->. auto. Qed.
Lemma same_get : forall tr tr' i nd, same tr tr' -> nth_error tr i = Some nd -> exists nd', nth_error tr' i = Some nd' /\ own nd = own nd' /\ parent nd = parent nd'.
Proof.
  intros tr tr' i nd [L H] E. destruct (nth_error tr' i) as [nd'|] eqn:E'; [exists nd'; split; [reflexivity|apply (H i); assumption]|].
  apply nth_error_None in E'. assert (nth_error tr i <> None) as X by congruence. apply nth_error_Some in X. lia.
Qed.
Lemma same_sym : forall tr tr', same tr tr' -> same tr' tr.
Proof. intros tr tr' [L H]. split; [congruence|]. intros i a b E1 E2. destruct (H i b a E2 E1). auto. Qed.
Lemma same_trans : forall a b c, same a b -> same b c -> same a c.
Proof.
  intros a b c H1 H2. split; [destruct H1, H2; congruence|]. intros i x z E1 E2. destruct (same_get a b i x H1 E1) as (y & E & O1 & P1).
  destruct (proj2 H2 i y z E E2) as [O2 P2]. split; congruence.
Qed.
Lemma same_cache : forall tr i nd o, nth_error tr i = Some nd -> same tr (set_nth tr i (mknode (own nd) (parent nd) o)).
Proof.
  intros tr i nd o E. split; [symmetry; apply set_nth_length|]. intros j a b Ea Eb. rewrite nth_set_nth in Eb. destruct (i =? j) eqn:Q.
  - apply Nat.eqb_eq in Q. subst j. rewrite E in Eb. assert (a = nd) as -> by congruence. injection Eb as <-. auto.
  - rewrite Ea in Eb. injection Eb as <-. auto.
Qed.
Lemma current_same : forall tr tr' i c, same tr tr' -> current tr i c -> current tr' i c.
Proof.
  intros tr tr' i c S H. induction H as [nd E|i nd pc c1 c E H IH M1 M2].
  - destruct (same_get tr tr' 0 nd S E) as (nd' & E' & O & _). rewrite O. apply cur_global. exact E'.
  - destruct (same_get tr tr' _ nd S E) as (nd' & E' & O & P). rewrite O in M2. rewrite P in IH. exact (cur_session tr' i nd' pc c1 c E' IH M1 M2).
Qed.
Lemma current_det : forall tr i c c', current tr i c -> current tr i c' -> c = c'.
Proof.
  intros tr i c c' H. revert c'. induction H as [nd E|i nd pc c1 c E H IH M1 M2]; intros c' H'; inversion H'; subst.
  - congruence.
  - assert (nd0 = nd) as -> by congruence. assert (pc = pc0) as <- by (apply IH; assumption). congruence.
Qed.

(** Reading gives the present value, and keeps every cache up to date. *)
Lemma get_spec : forall fuel tr i, wf tr -> valid tr -> i < fuel -> i < length tr ->
  same tr (fst (get fuel tr i)) /\ valid (fst (get fuel tr i)) /\
  (forall c, snd (get fuel tr i) = Ok c <-> current tr i c) /\
  (forall j nd, nth_error (fst (get fuel tr i)) j = Some nd -> cache nd <> None -> (exists nd0, nth_error tr j = Some nd0 /\ cache nd0 <> None) \/ j = i \/ below tr j i).
Proof.
  induction fuel as [|fuel IH]; intros tr i W V Lf Li; [lia|]. cbn [Config_Model.get].
  destruct (nth_error tr i) as [nd|] eqn:E; [|apply nth_error_None in E; lia].
  destruct i as [|i].
  { cbn [fst snd]. split; [apply same_refl|]. split; [exact V|]. split; [|intros j x Ex C; left; eauto].
    intro c. split; [intro H; injection H as <-; apply cur_global; exact E|intro H; inversion H; subst; congruence]. }
  destruct (cache nd) as [c0|] eqn:C.
  { cbn [fst snd]. split; [apply same_refl|]. split; [exact V|]. split; [|intros j x Ex Cx; left; eauto]. pose proof (V i nd c0 E C) as Cu.
    intro c. split; [intro H; injection H as <-; exact Cu|intro H; f_equal; eapply current_det; eauto]. }
  pose proof (W i nd E) as Pl. destruct (IH tr (parent nd) W V ltac:(lia) ltac:(lia)) as (S1 & V1 & R1 & K1).
  destruct (get fuel tr (parent nd)) as [tr' [pc|e]] eqn:G; cbn [fst snd] in *.
  2:{ split; [exact S1|]. split; [exact V1|]. split.
      - intro c. split; [discriminate|]. intro H. inversion H; subst. assert (nd0 = nd) as -> by congruence. apply R1 in H2. discriminate.
      - intros j x Ex Cx. destruct (K1 j x Ex Cx) as [K|[->|K]]; [left; exact K|right; right|right; right].
        + apply (below_child tr (parent nd) i nd E eq_refl).
        + exact (below_deep tr j i nd E K). }
  assert (Cp : current tr (parent nd) pc) by (apply R1; reflexivity).
  assert (KK : forall j x, nth_error tr' j = Some x -> cache x <> None -> (exists nd0, nth_error tr j = Some nd0 /\ cache nd0 <> None) \/ j = S i \/ below tr j (S i)).
  { intros j x Ex Cx. destruct (K1 j x Ex Cx) as [K|[->|K]]; [left; exact K|right; right|right; right].
    + apply (below_child tr (parent nd) i nd E eq_refl).
    + exact (below_deep tr j i nd E K). }
  destruct (merge_config default pc) as [c1|e] eqn:M1; cbn [bind].
  2:{ cbn [fst snd]. split; [exact S1|]. split; [exact V1|]. split; [|exact KK]. intro c. split; [discriminate|]. intro H. inversion H; subst.
      assert (nd0 = nd) as -> by congruence. assert (pc0 = pc) as -> by (eapply current_det; eauto). congruence. }
  destruct (merge_config c1 (own nd)) as [c|e] eqn:M2; cbn [fst snd].
  2:{ split; [exact S1|]. split; [exact V1|]. split; [|exact KK]. intro c. split; [discriminate|]. intro H. inversion H; subst.
      assert (nd0 = nd) as -> by congruence. assert (pc0 = pc) as -> by (eapply current_det; eauto). congruence. }
  destruct (same_get tr tr' _ nd S1 E) as (nd' & E' & O & P).
  assert (S2 : same tr' (set_nth tr' (S i) (mknode (own nd) (parent nd) (Some c)))) by (rewrite O, P; apply same_cache; exact E').
  assert (Cu : current tr (S i) c) by exact (cur_session tr i nd pc c1 c E Cp M1 M2).
  split; [eapply same_trans; eauto|]. split.
  - intros j x y Ex Cx. rewrite nth_set_nth in Ex. destruct (S i =? S j) eqn:Q.
    + apply Nat.eqb_eq in Q. injection Q as <-. rewrite E' in Ex. injection Ex as <-. cbn [cache] in Cx. injection Cx as <-.
      apply (current_same tr); [eapply same_trans; eauto|exact Cu].
    + eapply current_same; [exact S2|]. eapply V1; eauto.
  - split.
    + intro c'. split; [intro H; injection H as <-; exact Cu|intro H; f_equal; eapply current_det; eauto].
    + intros j x Ex Cx. rewrite nth_set_nth in Ex. destruct (S i =? j) eqn:Q; [apply Nat.eqb_eq in Q; auto|]. exact (KK j x Ex Cx).
Qed.

(** ** Writes *)
Lemma current_set : forall tr i nd nd', nth_error tr i = Some nd -> parent nd' = parent nd ->
  forall j c, j <> i -> ~ below tr i j -> current tr j c -> current (set_nth tr i nd') j c.
Proof.
  intros tr i nd nd' E P j c N B H. induction H as [x Ex|j x pc c1 c Ex H IH M1 M2].
  - apply cur_global. rewrite nth_set_nth. destruct (i =? 0) eqn:Q; [apply Nat.eqb_eq in Q; congruence|exact Ex].
  - assert (nth_error (set_nth tr i nd') (S j) = Some x) as X.
    { rewrite nth_set_nth. destruct (i =? S j) eqn:Q; [apply Nat.eqb_eq in Q; congruence|exact Ex]. }
    apply (cur_session _ j x pc c1 c X); [|exact M1|exact M2]. apply IH.
    + intro Q. apply B. exact (below_child tr i j x Ex Q).
    + intro Q. apply B. exact (below_deep tr i j x Ex Q).
Qed.
Lemma set_in_valid : forall tr i k v tr', valid tr -> (forall j nd, below tr i j -> nth_error tr j = Some nd -> cache nd = None) ->
  set_in tr i k v = Ok tr' -> valid tr'.
Proof.
  intros tr i k v tr' V B E. unfold Config_Model.set_in in E. destruct (nth_error tr i) as [nd|] eqn:Ei; [|discriminate].
  destruct (set k v (own nd)) as [c|] eqn:Es; [|discriminate]. injection E as <-.
  intros j x y Ex Cx. rewrite nth_set_nth in Ex. destruct (i =? S j) eqn:Q.
  - rewrite Ei in Ex. injection Ex as <-. discriminate.
  - apply Nat.eqb_neq in Q. apply (current_set tr i nd); [exact Ei|reflexivity|congruence| |eapply V; eauto].
    intro Bl. rewrite (B _ x Bl Ex) in Cx. discriminate.
Qed.

(** ** Histories. A history is read-before-write safe when no configuration is changed after one created from it was read. *)
(** How configurations were created does not depend on reads and writes: the parents after a history. *)
Definition parents_of (h : list cop) : list nat :=
  fold_left (fun ps o => match o with OSession p => if p <? length ps then ps ++ [p] else ps | _ => ps end) h [0].
Inductive descends (ps : list nat) (i : nat) : nat -> Prop :=
| desc_child : forall j, nth_error ps (S j) = Some i -> descends ps i (S j)
| desc_deep : forall j p, nth_error ps (S j) = Some p -> descends ps i p -> descends ps i (S j).
Definition safe (h : list cop) : Prop :=
  forall h1 h2 i k v, h = h1 ++ OSet i k v :: h2 -> forall j, In (ORead j) h1 -> ~ descends (parents_of h1) i j.
Definition on_existing (h : list cop) : Prop :=
  forall h1 h2 j, h = h1 ++ ORead j :: h2 -> j < length (parents_of h1).

Lemma same_parents : forall tr tr', same tr tr' -> map parent tr = map parent tr'.
Proof.
  induction tr as [|a tr IH]; intros [|b tr'] [L H]; try discriminate; [reflexivity|]. cbn [map]. f_equal.
  - apply (H 0 a b); reflexivity.
  - apply IH. split; [cbn in L; congruence|]. intros i x y E1 E2. apply (H (S i)); assumption.
Qed.
Lemma below_descends : forall tr i j, below tr i j <-> descends (map parent tr) i j.
Proof.
  intros tr i j. split.
  - induction 1 as [j nd E P|j nd E B IH].
    + apply desc_child. rewrite nth_error_map, E. cbn. congruence.
    + apply desc_deep with (p := parent nd); [|exact IH]. rewrite nth_error_map, E. reflexivity.
  - induction 1 as [j E|j p E B IH].
    + rewrite nth_error_map in E. destruct (nth_error tr (S j)) as [nd|] eqn:X; [|discriminate]. injection E as E. exact (below_child tr i j nd X E).
    + rewrite nth_error_map in E. destruct (nth_error tr (S j)) as [nd|] eqn:X; [|discriminate]. injection E as <-. exact (below_deep tr i j nd X IH).
Qed.
Lemma set_nth_parents : forall tr i nd c o, nth_error tr i = Some nd -> map parent (set_nth tr i (mknode c (parent nd) o)) = map parent tr.
Proof. induction tr as [|a tr IH]; intros [|i] nd c o E; cbn in *; try discriminate; [congruence|f_equal; eapply IH; eauto]. Qed.
Lemma wf_parents : forall tr, wf tr <-> (forall i p, nth_error (map parent tr) (S i) = Some p -> p < S i).
Proof.
  intro tr. split.
  - intros W i p E. rewrite nth_error_map in E. destruct (nth_error tr (S i)) eqn:X; [|discriminate]. injection E as <-. eapply W; eauto.
  - intros H i nd E. apply (H i). rewrite nth_error_map, E. reflexivity.
Qed.
Lemma wf_descends_app : forall ps p i j, (forall i q, nth_error ps (S i) = Some q -> q < S i) -> j < length ps -> descends (ps ++ [p]) i j -> descends ps i j.
Proof.
  intros ps p i j W L H. induction H as [j E|j q E H IH].
  - rewrite nth_error_app1 in E by lia. apply desc_child. exact E.
  - rewrite nth_error_app1 in E by lia. apply desc_deep with (p := q); [exact E|]. apply IH. specialize (W j q E). lia.
Qed.
Lemma descends_app : forall ps p i j, descends ps i j -> descends (ps ++ [p]) i j.
Proof.
  intros ps p i j H. induction H as [j E|j q E H IH].
  - apply desc_child. rewrite nth_error_app1; [exact E|]. apply nth_error_Some. congruence.
  - apply desc_deep with (p := q); [|exact IH]. rewrite nth_error_app1; [exact E|]. apply nth_error_Some. congruence.
Qed.
Lemma descends_trans : forall ps a b c, descends ps a b -> descends ps b c -> descends ps a c.
Proof. intros ps a b c H1 H2. induction H2; eapply desc_deep; eauto. Qed.
Lemma current_app : forall tr x j c, wf tr -> current tr j c -> current (tr ++ [x]) j c.
Proof.
  intros tr x j c W H. induction H as [nd E|j nd pc c1 c E H IH M1 M2].
  - apply cur_global. rewrite nth_error_app1; [exact E|]. apply nth_error_Some. congruence.
  - apply (cur_session _ j nd pc c1 c); [|exact IH|exact M1|exact M2]. rewrite nth_error_app1; [exact E|]. apply nth_error_Some. congruence.
Qed.
Lemma parents_of_snoc : forall h o, parents_of (h ++ [o]) = match o with OSession p => if p <? length (parents_of h) then parents_of h ++ [p] else parents_of h | _ => parents_of h end.
Proof. intros h o. unfold parents_of. rewrite fold_left_app. cbn. destruct o; reflexivity. Qed.

Lemma history_inv : forall c0 h, safe h -> on_existing h ->
  let tr := run (start c0) h in
  wf tr /\ valid tr /\ map parent tr = parents_of h /\
  (forall j nd, nth_error tr (S j) = Some nd -> cache nd <> None -> exists r, In (ORead r) h /\ (r = S j \/ descends (parents_of h) (S j) r)).
Proof.
  intros c0 h. induction h as [|o h IH] using rev_ind; intros Sf Ex.
  { cbn. split; [intros [|i] nd E; discriminate|]. split; [intros [|i] nd c E; discriminate|]. split; [reflexivity|]. intros [|j] nd E; discriminate. }
  assert (Sf' : safe h) by (intros h1 h2 i k v E; apply (Sf h1 (h2 ++ [o]) i k v); rewrite E, <- app_assoc; reflexivity).
  assert (Ex' : on_existing h) by (intros h1 h2 j E; apply (Ex h1 (h2 ++ [o]) j); rewrite E, <- app_assoc; reflexivity).
  destruct (IH Sf' Ex') as (W & V & P & K). clear IH. unfold Config_Model.run in *. rewrite fold_left_app. cbn [fold_left]. set (tr := fold_left step h (start c0)) in *.
  assert (LP : length tr = length (parents_of h)) by (rewrite <- P, map_length; reflexivity).
  rewrite parents_of_snoc. destruct o as [r|i k v|p]; cbn [Config_Model.step].
  - specialize (Ex h [] r eq_refl). destruct (get_spec (S r) tr r W V ltac:(lia) ltac:(lia)) as (S1 & V1 & _ & K1).
    pose proof (same_parents _ _ S1) as SP. split; [apply wf_parents; rewrite <- SP; apply wf_parents; exact W|]. split; [exact V1|]. split; [congruence|].
    intros j nd E C. destruct (K1 (S j) nd E C) as [(nd0 & E0 & C0)|[Eq|B]].
    + destruct (K j nd0 E0 C0) as (q & I & Q). exists q. split; [apply in_or_app; auto|exact Q].
    + exists r. split; [apply in_or_app; right; left; reflexivity|left; symmetry; exact Eq].
    + exists r. split; [apply in_or_app; right; left; reflexivity|right]. rewrite <- P. apply below_descends. exact B.
  - destruct (set_in tr i k v) as [tr'|e] eqn:E.
    + assert (V' : valid tr').
      { eapply set_in_valid; eauto. intros j nd B Ej. destruct (cache nd) as [c|] eqn:C; [|reflexivity]. exfalso.
        destruct j as [|j]; [inversion B|]. destruct (K j nd Ej ltac:(congruence)) as (r & I & Q).
        apply (Sf h [] i k v eq_refl r I). apply below_descends in B. rewrite P in B. destruct Q as [->|Q]; [exact B|]. eapply descends_trans; eauto. }
      unfold Config_Model.set_in in E. destruct (nth_error tr i) as [nd|] eqn:Ei; [|discriminate]. destruct (set k v (own nd)) as [c|]; [|discriminate].
      injection E as <-. pose proof (set_nth_parents tr i nd c None Ei) as SP. split; [apply wf_parents; rewrite SP; apply wf_parents; exact W|].
      split; [exact V'|]. split; [congruence|]. intros j x Ex2 C. rewrite nth_set_nth in Ex2. destruct (i =? S j) eqn:Q.
      * rewrite Ei in Ex2. injection Ex2 as <-. contradiction.
      * destruct (K j x Ex2 C) as (r & I & R). exists r. split; [apply in_or_app; auto|exact R].
    + split; [exact W|]. split; [exact V|]. split; [exact P|]. intros j x Ex2 C. destruct (K j x Ex2 C) as (r & I & R). exists r. split; [apply in_or_app; auto|exact R].
  - rewrite LP. destruct (p <? length (parents_of h)) eqn:Q.
    + apply Nat.ltb_lt in Q. unfold session. split.
      { intros i nd E. destruct (Nat.lt_ge_cases (S i) (length tr)) as [L|L]; [rewrite nth_error_app1 in E by lia; eapply W; eauto|].
        rewrite nth_error_app2 in E by lia. destruct (S i - length tr) as [|m] eqn:D; [|destruct m; discriminate]. cbn in E. injection E as <-. cbn. lia. }
      split.
      { intros i nd c E C. destruct (Nat.lt_ge_cases (S i) (length tr)) as [L|L].
        - rewrite nth_error_app1 in E by lia. apply current_app; [exact W|]. eapply V; eauto.
        - rewrite nth_error_app2 in E by lia. destruct (S i - length tr) as [|m]; [|destruct m; discriminate]. cbn in E. injection E as <-. discriminate. }
      split; [rewrite map_app, P; reflexivity|].
      intros j nd E C. destruct (Nat.lt_ge_cases (S j) (length tr)) as [L|L].
      * rewrite nth_error_app1 in E by lia. destruct (K j nd E C) as (r & I & [R|R]); exists r; (split; [apply in_or_app; auto|]); [auto|right; apply descends_app; exact R].
      * rewrite nth_error_app2 in E by lia. destruct (S j - length tr) as [|m]; [|destruct m; discriminate]. cbn in E. injection E as <-. cbn in C. contradiction.
    + split; [exact W|]. split; [exact V|]. split; [exact P|]. intros j x Ex2 C. destruct (K j x Ex2 C) as (r & I & R). exists r. split; [apply in_or_app; auto|exact R].
Qed.

(** In every history in which nothing is changed after something created from it was read, a read gives the present
    value of the configuration. *)
Theorem session_reads_current : forall c0 h i c, safe h -> on_existing h -> i < length (parents_of h) ->
  (read_config (run (start c0) h) i = Ok c <-> current (run (start c0) h) i c).
Proof.
  intros c0 h i c Sf Ex L. destruct (history_inv c0 h Sf Ex) as (W & V & P & _). unfold Config_Model.read_config.
  apply (get_spec (S i)); [exact W|exact V|lia|]. rewrite <- (map_length parent), P. exact L.
Qed.
(** The present value, key by key: plain settings. *)
Theorem current_overlay : forall tr i nd c k p, NoDup (map fst (own nd)) -> nth_error tr (S i) = Some nd -> plain_key k -> current tr (S i) c ->
  exists pc, current tr (parent nd) pc /\
  (NoDup (map fst pc) -> read c (k :: p) = match assoc k (own nd) with Some x => look x p | None =>
                         match assoc k pc with Some x => look x p | None => read default (k :: p) end end).
Proof.
  intros tr i nd c k p N E Pk H. inversion H as [|i' nd' pc c1 c' E' Hp M1 M2]; subst. assert (nd' = nd) as -> by congruence.
  exists pc. split; [exact Hp|]. intro Np. rewrite (merge_plain _ _ _ _ p N M2 Pk), (merge_plain _ _ _ _ p Np M1 Pk). reflexivity.
Qed.
(** ... and the entries of a section. *)
Theorem current_overlay_section : forall tr i nd c k n dd dw, NoDup (map fst (own nd)) -> nth_error tr (S i) = Some nd -> In k merge_sections -> current tr (S i) c ->
  assoc k default = Some (CDict dd) -> assoc k (own nd) = Some (CDict dw) -> NoDup (map fst dw) ->
  exists pc, current tr (parent nd) pc /\
  (forall dp, NoDup (map fst pc) -> assoc k pc = Some (CDict dp) -> NoDup (map fst dp) ->
   read c [k; n] = match assoc n dw with Some x => Some x | None => match assoc n dp with Some x => Some x | None => assoc n dd end end).
Proof.
  intros tr i nd c k n dd dw N E I H Hd Hw Nw. inversion H as [|i' nd' pc c1 c' E' Hp M1 M2]; subst. assert (nd' = nd) as -> by congruence.
  exists pc. split; [exact Hp|]. intros dp Np Hdp Ndp.
  assert (S1 : forall n, read c1 [k; n] = match assoc n dp with Some x => Some x | None => assoc n dd end) by (intro m; exact (merge_section pc default c1 k dd dp m Np M1 I Hd Hdp Ndp)).
  assert (exists d1, assoc k c1 = Some (CDict d1)) as (d1 & A).
  { pose proof (merge_config_at pc default c1 k Np M1) as M. rewrite Hdp in M. destruct M as (a & b & H1 & H2 & H3). unfold merge_key in H2. apply mem_In in I. rewrite I, H1, Hd in H2.
    injection H2 as <-. rewrite H3, assoc_dict_set, text_eqb_refl. eauto. }
  rewrite (merge_section _ _ _ _ _ _ n N M2 I A Hw Nw). destruct (assoc n dw); [reflexivity|]. specialize (S1 n). unfold read in S1. cbn [look] in S1. rewrite A in S1. cbn [look] in S1.
  destruct (assoc n d1); exact S1.
Qed.

(** ** Deviations *)
(** A session that was read once keeps giving the same settings whatever happens to the others. *)
Theorem session_stale_refuted : forall tr i c j k v tr', i <> 0 -> j <> i -> i < length tr -> read_config tr i = Ok c ->
  set_in (step tr (ORead i)) j k v = Ok tr' -> read_config tr' i = Ok c.
Proof.
  intros tr i c j k v tr' Ni Nj L R E. unfold Config_Model.read_config in *. cbn [Config_Model.step] in E.
  assert (C : exists nd, nth_error (fst (get (S i) tr i)) i = Some nd /\ cache nd = Some c).
  { cbn [Config_Model.get] in *. destruct (nth_error tr i) as [nd|] eqn:X; [|apply nth_error_None in X; lia]. destruct i as [|i]; [lia|].
    destruct (cache nd) as [c0|] eqn:C; [cbn in *; exists nd; split; [exact X|congruence]|]. destruct (get (S i) tr (parent nd)) as [tr1 [pc|e]] eqn:G; [|discriminate].
    destruct (merge_config default pc) as [c1|]; [|discriminate]. cbn [bind] in *. destruct (merge_config c1 (own nd)) as [c2|]; [|discriminate]. cbn [fst snd] in *. injection R as <-.
    exists (mknode (own nd) (parent nd) (Some c2)). split; [|reflexivity]. rewrite nth_set_nth, Nat.eqb_refl.
    assert (Lg : forall f t0 m, length (fst (get f t0 m)) = length t0).
    { clear. induction f as [|f IH]; intros t0 m; [reflexivity|]. cbn [Config_Model.get]. destruct (nth_error t0 m) as [nd|]; [|reflexivity]. destruct m; [reflexivity|].
      destruct (cache nd); [reflexivity|]. specialize (IH t0 (parent nd)). destruct (get f t0 (parent nd)) as [t1 [p|]]; [|exact IH]. cbn [fst] in IH.
      destruct (merge_config default p) as [c1|]; [|exact IH]. cbn [bind]. destruct (merge_config c1 (own nd)); [|exact IH]. cbn [fst]. rewrite set_nth_length. exact IH. }
    specialize (Lg (S i) tr (parent nd)). rewrite G in Lg. cbn [fst] in Lg. destruct (nth_error tr1 (S i)) eqn:Y; [reflexivity|]. apply nth_error_None in Y. lia. }
  destruct C as (nd & X & C). set (T := fst (get (S i) tr i)) in *. clearbody T. unfold Config_Model.set_in in E. destruct (nth_error T j) as [nj|] eqn:Y; [|discriminate].
  destruct (set k v (own nj)) as [cj|]; [|discriminate]. injection E as <-. cbn [Config_Model.get]. rewrite nth_set_nth.
  destruct (j =? i) eqn:Q; [apply Nat.eqb_eq in Q; contradiction|]. rewrite X. destruct i; [lia|]. rewrite C. reflexivity.
Qed.
(** A new session ignores the parent's value of every plain setting that has a default. *)
Theorem session_default_masks_refuted : forall tr p c k d q, wf tr -> NoDup (map fst default) -> plain_key k -> assoc k default = Some d ->
  p < length tr -> current (session default tr p) (length tr) c -> read c (k :: q) = look d q.
Proof.
  intros tr p c k d q W N Pk D L H. unfold session in H. destruct (length tr) as [|n] eqn:Ln; [lia|].
  destruct (current_overlay (tr ++ [mknode default p None]) n (mknode default p None) c k q N) as (pc & Hp & R); [|exact Pk|exact H|].
  - rewrite nth_error_app2 by lia. replace (S n - length tr) with 0 by lia. reflexivity.
  - inversion H as [|i' nd' pc' c1 c' E' Hp' M1 M2]; subst. rewrite nth_error_app2, Ln in E' by lia. replace (S n - S n) with 0 in E' by lia. cbn in E'. injection E' as <-.
    cbn [own] in M2. rewrite (merge_plain _ _ _ _ q N M2 Pk), D. reflexivity.
Qed.
End Sessions.

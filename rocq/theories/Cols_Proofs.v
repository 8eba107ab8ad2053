(** Proofs about the columns of a result. *)
From Verif Require Import Base Agg_Model Str_Model Json_Proofs Union_Proofs Having_Proofs Cols_Syntax Cols_Spec Cols_Model.
Open Scope nat_scope.

Lemma flat_replace : forall n, py_replace n [46%N] [95%N] = flat n.
Proof.
  intro n. rewrite replace_one. unfold flat. induction n as [|c n IH]; [reflexivity|].
  cbn [flat_map map]. rewrite IH. destruct (c =? 46)%N; reflexivity.
Qed.

Lemma mem_In : forall n l, mem n l = true <-> In n l.
Proof.
  intros. unfold mem. rewrite existsb_exists. split.
  - intros [x [I H]]. apply text_eqb_spec in H. subst. exact I.
  - intro I. exists n. split; [exact I|apply text_eqb_refl].
Qed.
Lemma mem_app : forall n a b, mem n (a ++ b) = mem n a || mem n b.
Proof. intros. unfold mem. apply existsb_app. Qed.

Lemma distinct_In : forall l n, In n (distinct l) <-> In n l.
Proof.
  induction l as [|x l IH]; intro n; [reflexivity|]. cbn [distinct In]. rewrite filter_In, IH. split.
  - intros [H|[H _]]; auto.
  - intros [H|H]; auto. destruct (text_eqb x n) eqn:E; [left; apply text_eqb_spec; exact E|].
    right. split; [exact H|]. rewrite ?E. reflexivity.
Qed.
Lemma distinct_snoc : forall l n, distinct (l ++ [n]) = if mem n l then distinct l else distinct l ++ [n].
Proof.
  induction l as [|x l IH]; intro n; [reflexivity|]. cbn [distinct app]. rewrite IH. unfold mem. cbn [existsb].
  destruct (text_eqb n x) eqn:E; cbn [orb].
  - apply text_eqb_spec in E. subst x. destruct (existsb (text_eqb n) l); [reflexivity|].
    rewrite filter_app. cbn [filter]. rewrite text_eqb_refl. cbn [negb]. rewrite app_nil_r. reflexivity.
  - fold (mem n l). destruct (mem n l); [reflexivity|]. rewrite filter_app. cbn [filter].
    assert (text_eqb x n = false) as -> by (rewrite text_eqb_sym; exact E). reflexivity.
Qed.
Lemma distinct_NoDup : forall l, NoDup (distinct l).
Proof.
  induction l as [|x l IH]; [constructor|]. cbn [distinct]. constructor.
  - rewrite filter_In. intros [_ H]. rewrite text_eqb_refl in H. discriminate.
  - apply NoDup_filter. exact IH.
Qed.
Lemma distinct_id : forall l, NoDup l -> distinct l = l.
Proof.
  induction 1 as [|x l N _ IH]; [reflexivity|]. cbn [distinct]. rewrite IH. f_equal.
  clear IH. induction l as [|y l IH]; [reflexivity|]. cbn [filter].
  assert (text_eqb x y = false) as -> by (apply text_eqb_neq; intro H; subst; apply N; left; reflexivity).
  cbn [negb]. f_equal. apply IH. intro H. apply N. right. exact H.
Qed.

Section Proofs.
Variable E : Type.
Variable sql : E -> text.
Variable uses : E -> list (option text * text).
Variable ident : text -> bool.
Notation entry := (entry E).
Notation item := (item E).

Definition add (m : list (text * source E)) (e : entry) : list (text * source E) :=
  if e_explicit e then dict_set (e_name e) (e_source e) m
  else match assoc (e_name e) m with Some _ => m | None => dict_set (e_name e) (e_source e) m end.

Definition built (l : list entry) := fold_left add l [].
Lemma built_snoc : forall l e, built (l ++ [e]) = add (built l) e.
Proof. intros. unfold built. rewrite fold_left_app. reflexivity. Qed.

Lemma built_keys : forall l, map fst (built l) = distinct (map (@e_name E) l).
Proof.
  induction l as [|e l IH] using rev_ind; [reflexivity|]. rewrite built_snoc, map_app. cbn [map].
  rewrite distinct_snoc. unfold add.
  assert (K : forall n, mem n (map (@e_name E) l) = match assoc n (built l) with Some _ => true | None => false end).
  { intro n. destruct (assoc n (built l)) eqn:A.
    - apply mem_In. apply distinct_In. rewrite <- IH.
      clear - A. induction (built l) as [|[k v] m IH]; [discriminate|]. cbn [assoc map fst In] in *.
      destruct (text_eqb n k) eqn:F; [left; apply text_eqb_spec in F; congruence|right; exact (IH A)].
    - destruct (mem n (map (@e_name E) l)) eqn:M; [|reflexivity]. exfalso. apply (proj1 (mem_In _ _)) in M. apply (proj2 (distinct_In _ _)) in M. rewrite <- IH in M.
      clear - M A. induction (built l) as [|[k v] m IH]; [destruct M|]. cbn [assoc map fst In] in *.
      destruct (text_eqb n k) eqn:F; [discriminate|]. destruct M as [->|M]; [rewrite text_eqb_refl in F; discriminate|exact (IH A M)]. }
  rewrite K. destruct (assoc (e_name e) (built l)) eqn:A.
  - assert (I : In (e_name e) (map fst (built l))).
    { rewrite IH. apply distinct_In, mem_In. rewrite K, A. reflexivity. }
    destruct (e_explicit e); [rewrite keys_dict_set_in by exact I|]; exact IH.
  - assert (I : ~ In (e_name e) (map fst (built l))).
    { rewrite IH. intro H. apply (proj1 (distinct_In _ _)) in H. apply (proj2 (mem_In _ _)) in H. rewrite K, A in H. discriminate. }
    destruct (e_explicit e); rewrite keys_dict_set_new by exact I; rewrite IH; reflexivity.
Qed.

Lemma built_mem : forall l n, mem n (map (@e_name E) l) = match assoc n (built l) with Some _ => true | None => false end.
Proof.
  intros. pose proof (built_keys l) as K. destruct (assoc n (built l)) eqn:A.
  - apply mem_In, distinct_In. rewrite <- K.
    clear - A. induction (built l) as [|[k v] m IH]; [discriminate|]. cbn [assoc map fst In] in *.
    destruct (text_eqb n k) eqn:F; [left; apply text_eqb_spec in F; congruence|right; exact (IH A)].
  - destruct (mem n (map (@e_name E) l)) eqn:M; [|reflexivity]. exfalso. apply (proj1 (mem_In _ _)) in M. apply (proj2 (distinct_In _ _)) in M. rewrite <- K in M.
    clear - M A. induction (built l) as [|[k v] m IH]; [destruct M|]. cbn [assoc map fst In] in *.
    destruct (text_eqb n k) eqn:F; [discriminate|]. destruct M as [->|M]; [rewrite text_eqb_refl in F; discriminate|exact (IH A M)].
Qed.

Lemma winner_snoc : forall (l : list entry) e n, winner n (l ++ [e]) =
  if named n e then if e_explicit e then Some (e_source e)
                    else match winner n l with Some s => Some s | None => Some (e_source e) end
  else winner n l.
Proof.
  intros. unfold winner. rewrite !filter_app. cbn [filter]. destruct (named n e) eqn:N; cbn [andb].
  - destruct (e_explicit e); [rewrite rev_app_distr; reflexivity|]. rewrite app_nil_r.
    destruct (rev (filter (fun e0 => named n e0 && e_explicit e0) l)); [|reflexivity].
    destruct (filter (named n) l); reflexivity.
  - rewrite !app_nil_r. reflexivity.
Qed.

Lemma built_assoc : forall l n, assoc n (built l) = winner n l.
Proof.
  induction l as [|e l IH] using rev_ind; intro n; [reflexivity|]. rewrite built_snoc, winner_snoc, <- IH. unfold add, named.
  destruct (text_eqb n (e_name e)) eqn:N.
  - apply text_eqb_spec in N. subst n. destruct (e_explicit e); [rewrite assoc_dict_set, text_eqb_refl; reflexivity|].
    destruct (assoc (e_name e) (built l)) eqn:A; [exact A|]. rewrite assoc_dict_set, text_eqb_refl. reflexivity.
  - destruct (e_explicit e); [|destruct (assoc (e_name e) (built l)); [reflexivity|]]; rewrite assoc_dict_set, N; reflexivity.
Qed.

(** what the state of the compiler says after the columns [l] were asked for *)
Definition inv (l : list entry) (st : state E) : Prop :=
  schema st = Listed (built l) /\
  seted st = existsb (@e_marked E) l /\
  okeys st = match filter (@e_marked E) l with
             | [] => firstn 1 (map (@e_name E) (filter (@e_candidate E) l))
             | m => map (@e_name E) m
             end /\
  match filter (@e_marked E) l with [] => lkeys st <> [] -> okeys st <> [] | m => lkeys st = map (@e_origin E) m end.

Lemma inv_start : inv [] (@start E).
Proof. repeat split. cbn. intro H. exact H. Qed.

Lemma marked_none : forall l : list entry, existsb (@e_marked E) l = false <-> filter (@e_marked E) l = [].
Proof.
  induction l as [|e l IH]; [split; reflexivity|]. cbn [existsb filter]. destruct (e_marked e); cbn [orb]; [split; discriminate|exact IH].
Qed.

Lemma primary_tname : forall f, tname f = primary f.
Proof. reflexivity. Qed.
Lemma of_from_primary : forall f q, of_primary f q = of_from f q.
Proof. reflexivity. Qed.

(** keys after one more column *)
Lemma inv_step : forall l st e c lk ok sd,
  inv l st -> c = Listed (add (built l) e) ->
  (sd = seted st || e_marked e) ->
  (e_marked e = true -> ok = (if seted st then okeys st else []) ++ [e_name e] /\ lk = (if seted st then lkeys st else []) ++ [e_origin e]) ->
  (e_marked e = false -> seted st = true -> ok = okeys st /\ lk = lkeys st) ->
  (e_marked e = false -> seted st = false -> e_candidate e = false \/ okeys st <> [] -> ok = okeys st) ->
  (e_marked e = false -> seted st = false -> e_candidate e = true -> okeys st = [] -> ok = [e_name e]) ->
  (e_marked e = false -> seted st = false -> lk <> [] -> ok <> []) ->
  inv (l ++ [e]) {| schema := c; lkeys := lk; okeys := ok; seted := sd |}.
Proof.
  intros l st e c lk ok sd [S [SD [OK LK]]] C HS HM HK HC HF HL. unfold inv. cbn [schema lkeys okeys seted].
  rewrite built_snoc, existsb_app, !filter_app. cbn [existsb filter]. rewrite orb_false_r. split; [exact C|]. split; [congruence|].
  destruct (e_marked e) eqn:M.
  - destruct (HM eq_refl) as [-> ->]. rewrite SD in *.
    destruct (existsb (@e_marked E) l) eqn:X.
    + destruct (filter (@e_marked E) l) as [|y ys] eqn:F; [apply marked_none in F; congruence|].
      rewrite <- F in *. rewrite OK, LK. destruct (filter (@e_marked E) l) eqn:G; [congruence|].
      cbn [app]. split; [rewrite app_comm_cons, map_app; reflexivity|rewrite app_comm_cons, map_app; reflexivity].
    + apply marked_none in X. rewrite X. cbn. split; reflexivity.
  - rewrite app_nil_r. clear HM. destruct (seted st) eqn:X.
    + destruct (HK eq_refl eq_refl) as [-> ->]. destruct (filter (@e_marked E) l) as [|y ys] eqn:F; [apply marked_none in F; congruence|].
      split; assumption.
    + symmetry in SD. apply marked_none in SD. rewrite SD in *. specialize (HC eq_refl eq_refl). specialize (HF eq_refl eq_refl).
      specialize (HL eq_refl eq_refl). split; [|exact HL].
      destruct (e_candidate e) eqn:Y.
      * destruct (okeys st) eqn:O.
        -- rewrite (HF eq_refl eq_refl). destruct (filter (@e_candidate E) l); [reflexivity|discriminate OK].
        -- rewrite HC by (right; congruence). destruct (filter (@e_candidate E) l); [discriminate OK|]. exact OK.
      * rewrite HC by (left; reflexivity). rewrite app_nil_r. exact OK.
Qed.

Lemma inv_lkeys : forall l st, inv l st -> lkeys st <> [] -> okeys st <> [].
Proof.
  intros l st [S [SD [OK LK]]] H. destruct (filter (@e_marked E) l) eqn:F; [exact (LK H)|]. rewrite OK. discriminate.
Qed.

(** one column of a table *)
Lemma column_step : forall f l st alias q n pk o ex,
  inv l st -> owner f q = Some o -> (ex = true \/ exists a, alias = Some a /\ mem a (map (@e_name E) l) = false) ->
  let name := match alias, q with
              | Some a, _ => a
              | None, Some x => if mem (flat n) (map (@e_name E) l) then x ++ [46%N] ++ flat n else flat n
              | None, None => flat n
              end in
  exists st', select_column ident f alias q n pk st = Ok st' /\
    inv (l ++ [{| e_explicit := ex; e_name := name; e_source := SCol o n; e_origin := n;
                  e_marked := pk && ident n && ident name; e_candidate := ident n && ident name && of_from f q |}]) st'.
Proof.
  intros f l st alias q n pk o ex I O X name.
  assert (S : schema st = Listed (built l)) by apply I.
  assert (NM : match alias with
               | Some a => a
               | None => let n := py_replace n [46%N] [95%N] in
                         match q with
                         | Some x => if in_schema n (schema st) then x ++ [46%N] ++ n else n
                         | None => n
                         end
               end = name).
  { unfold name. destruct alias; [reflexivity|]. cbv zeta. rewrite flat_replace. destruct q; [|reflexivity].
    rewrite S, built_mem. reflexivity. }
  unfold select_column. cbv zeta in NM |- *. rewrite NM. clear NM.
  assert (P : (if of_primary f q then put name (SCol (tname f) n) (schema st)
           else match q with
                | Some x => if known f x then put name (SCol x n) (schema st) else Err CompileError
                | None => Err CompileError
                end) = Ok (Listed (dict_set name (SCol o n) (built l)))).
  { rewrite S. unfold owner, primary in O. unfold of_primary, tname, known. destruct q as [x|].
    - destruct (text_eqb x _) eqn:T; [injection O as <-; apply text_eqb_spec in T; rewrite <- T; reflexivity|].
      destruct (assoc x (f_joins f)); [injection O as <-; reflexivity|discriminate].
    - injection O as <-. reflexivity. }
  rewrite P. clear P. cbn [bind]. rewrite of_from_primary.
  set (e := {| e_explicit := ex; e_name := name; e_source := SCol o n; e_origin := n; e_marked := pk && ident n && ident name;
               e_candidate := ident n && ident name && of_from f q |}).
  assert (C : Listed (dict_set name (SCol o n) (built l)) = Listed (add (built l) e)).
  { unfold add, e. cbn [e_explicit e_name e_source]. destruct ex; [reflexivity|].
    destruct X as [X|[a [-> X]]]; [discriminate|]. assert (name = a) as -> by reflexivity.
    rewrite built_mem in X. destruct (assoc a (built l)); [discriminate|reflexivity]. }
  pose proof (inv_lkeys _ _ I) as IL.
  destruct (negb (ident n) || negb (ident name)) eqn:ID.
  - assert (EM : e_marked e = false).
    { unfold e; cbn [e_marked]. apply orb_true_iff in ID as [H|H]; apply negb_true_iff in H; rewrite H; rewrite ?andb_false_r; reflexivity. }
    assert (EC : e_candidate e = false).
    { unfold e; cbn [e_candidate]. apply orb_true_iff in ID as [H|H]; apply negb_true_iff in H; rewrite H; rewrite ?andb_false_r; reflexivity. }
    eexists. split; [reflexivity|]. apply (inv_step l st); auto; try (rewrite EM); try congruence; try (rewrite orb_false_r; reflexivity); intros; try (split; reflexivity); auto; congruence.
  - apply orb_false_iff in ID as [ID1 ID2]. apply negb_false_iff in ID1, ID2.
    assert (EM : e_marked e = pk) by (unfold e; cbn [e_marked]; rewrite ID1, ID2, !andb_true_r; reflexivity).
    assert (EC : e_candidate e = of_from f q) by (unfold e; cbn [e_candidate]; rewrite ID1, ID2; reflexivity).
    destruct pk.
    + destruct (seted st) eqn:SD; (eexists; split; [reflexivity|]); apply (inv_step l st); auto; rewrite ?EM, ?SD; intros; try congruence; auto.
    + destruct (seted st) eqn:SD; cbn [negb andb].
      * eexists. split; [reflexivity|]. apply (inv_step l st); auto; rewrite ?EM, ?SD; intros; try congruence; auto.
      * destruct (lkeys st) eqn:LK.
        -- destruct (of_from f q) eqn:OF; (eexists; split; [reflexivity|]); apply (inv_step l st); auto; rewrite ?EM, ?EC, ?SD; intros; try congruence; auto;
             try (match goal with H : _ \/ _ |- _ => destruct H; [congruence|] end); try (destruct (okeys st); [congruence|reflexivity]);
             try (destruct (okeys st); congruence);
             try (match goal with H : okeys st = [] |- _ => rewrite H; reflexivity end).
        -- eexists. split; [reflexivity|]. apply (inv_step l st); auto; rewrite ?EM, ?EC, ?SD; intros; try congruence; auto;
             exfalso; apply IL; congruence.
Qed.

(** the columns behind a star *)
Lemma star_step : forall f q o names l0 l st,
  inv (l0 ++ l) st -> owner f (Some q) = Some o -> NoDup names -> (forall n, In n names -> ~ In n (map (@e_name E) l)) ->
  exists st', star_columns ident f q names st = Ok st' /\
    inv (l0 ++ l ++ map (fun n => {| e_explicit := false; e_name := n; e_source := SCol q n; e_origin := n; e_marked := false;
                               e_candidate := negb (mem n (map (@e_name E) l0)) && ident n && of_from f (Some q) |}) names) st'.
Proof.
  intros f q o names. induction names as [|n names IH]; intros l0 l st I O N D.
  - exists st. split; [reflexivity|]. cbn [map]. rewrite app_nil_r. exact I.
  - cbn [star_columns]. inversion N as [|? ? N1 N2]; subst.
    assert (OQ : o = q).
    { unfold owner in O. destruct (text_eqb q (primary f)); [congruence|]. destruct (assoc q (f_joins f)); congruence. }
    assert (S : schema st = Listed (built (l0 ++ l))) by apply I.
    assert (M : in_schema n (schema st) = mem n (map (@e_name E) l0)).
    { rewrite S. unfold in_schema. rewrite <- built_mem, map_app, mem_app.
      assert (mem n (map (@e_name E) l) = false) as ->.
      { destruct (mem n (map (@e_name E) l)) eqn:Z; [|reflexivity]. apply mem_In in Z. exfalso. exact (D n (or_introl eq_refl) Z). }
      apply orb_false_r. }
    rewrite M. set (e := {| e_explicit := false; e_name := n; e_source := SCol q n; e_origin := n; e_marked := false;
        e_candidate := negb (mem n (map (@e_name E) l0)) && ident n && of_from f (Some q) |} : entry). 
    assert (ST : exists st', (if mem n (map (@e_name E) l0) then Ok st else select_column ident f (Some n) (Some q) n false st) = Ok st'
                 /\ inv ((l0 ++ l) ++ [e]) st').
    { destruct (mem n (map (@e_name E) l0)) eqn:Z.
      - exists st. split; [reflexivity|]. destruct st as [c lk ok sd]. apply inv_step with (st := {| schema := c; lkeys := lk; okeys := ok; seted := sd |}); auto.
        + cbn in S. rewrite S. f_equal. unfold add, e. cbn [e_explicit e_name]. cbn [schema] in M. rewrite S in M. cbn [in_schema] in M. rewrite ?Z in M.
          destruct (assoc n (built (l0 ++ l))); [reflexivity|discriminate].
        + cbn. rewrite orb_false_r. reflexivity.
        + discriminate.
        + intros _ _ H. exfalso. unfold e in H. cbn [e_candidate] in H. rewrite ?Z in H. discriminate.
        + intros _ SD. cbn. apply (inv_lkeys _ _ I).
      - destruct (column_step f (l0 ++ l) st (Some n) (Some q) n false q false I) as [st' [A B]].
        + rewrite O. congruence.
        + right. exists n. split; [reflexivity|]. rewrite S in M. unfold in_schema in M. rewrite <- built_mem in M. exact M.
        + exists st'. split; [exact A|].
          assert (X : e = {| e_explicit := false; e_name := n; e_source := SCol q n; e_origin := n;
            e_marked := false && ident n && ident n; e_candidate := ident n && ident n && of_from f (Some q) |})
            by (unfold e; rewrite andb_diag; reflexivity).
          rewrite X. exact B. }
    destruct ST as [st' [A B]]. rewrite <- app_assoc in B.
    destruct (IH l0 (l ++ [e]) st' B O N2) as [st'' [A' B']].
    { intros m Im. rewrite map_app. intro H. apply in_app_or in H as [H|[<-|[]]].
      - exact (D m (or_intror Im) H).
      - exact (N1 Im). }
    exists st''. split.
    + destruct (mem n (map (@e_name E) l0)); [injection A as <-; exact A'|]. rewrite A. exact A'.
    + rewrite <- app_assoc in B'. exact B'.
Qed.

Lemma item_step : forall f it es l st, proper f ->
  inv l st -> asked sql uses ident f (map (@e_name E) l) it = Some es ->
  exists st', select_item sql uses ident f it st = Ok st' /\ inv (l ++ es) st'.
Proof.
  intros f it es l st [PA [PC [PJ PD]]] I A.
  assert (S : schema st = Listed (built l)) by apply I.
  destruct it as [|q|alias q n pk|alias k e]; cbn [asked] in A; unfold select_item.
  - unfold star_entries, behind in A. rewrite text_eqb_refl in A. unfold star. destruct (f_cols f) as [names|] eqn:F; [|discriminate].
    injection A as <-. rewrite primary_tname.
    destruct (star_step f (primary f) (primary f) names l [] st) as [st' [A B]].
    { rewrite app_nil_r. exact I. }
    { cbn. rewrite text_eqb_refl. reflexivity. }
    { exact (PC _ eq_refl). } { intros n _ []. }
    exists st'. rewrite A. split; [reflexivity|]. exact B.
  - unfold star_entries in A. destruct (behind f q) as [names|] eqn:F; [|discriminate]. injection A as <-.
    assert (G : owner f (Some q) = Some q /\ NoDup names /\ (if opt_eqb (Some q) (f_alias f) then f_cols f else match assoc q (f_joins f) with Some c => c | None => None end) = Some names).
    { unfold behind in F. unfold owner. unfold opt_eqb. unfold primary in *. destruct (f_alias f) as [a|] eqn:AL.
      - destruct (text_eqb q a).
        + split; [reflexivity|]. split; [exact (PC _ F)|exact F].
        + destruct (assoc q (f_joins f)) as [c|] eqn:J; [|discriminate]. subst c. split; [reflexivity|]. split; [exact (PJ _ _ J)|reflexivity].
      - destruct (text_eqb q (f_origin f)).
        + exfalso. apply PA; congruence.
        + destruct (assoc q (f_joins f)) as [c|] eqn:J; [|discriminate]. subst c. split; [reflexivity|]. split; [exact (PJ _ _ J)|reflexivity]. }
    destruct G as [G1 [G2 G3]]. unfold star. rewrite G3.
    destruct (star_step f q q names l [] st) as [st' [A B]]; auto.
    { rewrite app_nil_r. exact I. }
    exists st'. rewrite A. split; [reflexivity|]. exact B.
  - rewrite S. destruct (owner f q) as [o|] eqn:O; [|discriminate]. injection A as <-.
    destruct (column_step f l st alias q n pk o true I O (or_introl eq_refl)) as [st' [A B]]. exists st'. split; [exact A|exact B].
  - rewrite S. set (name := match alias with Some a => a | None => sql e end) in *.
    destruct (match k with KConst => true | _ => forallb (fun u => owned f (fst u)) (uses e) end) eqn:U; [|discriminate]. injection A as <-.
    assert (OW : forall q, owned f q = of_primary f q || match q with Some x => known f x | None => false end).
    { intro q. unfold owned, owner, of_primary, known, tname, primary. destruct q as [x|]; [|reflexivity].
      destruct (text_eqb x _); [reflexivity|]. destruct (assoc x (f_joins f)); reflexivity. }
    assert (FB : forallb (fun u : option text * text => of_primary f (fst u) || match fst u with Some x => known f x | None => false end) (uses e)
                 = forallb (fun u => owned f (fst u)) (uses e)).
    { clear - OW. induction (uses e) as [|u r IH]; [reflexivity|]. cbn [forallb]. rewrite IH, OW. reflexivity. }
    pose proof (inv_lkeys _ _ I) as IL.
    destruct k; unfold calculate_column; rewrite ?FB, ?U; cbn [negb put bind andb]; cbn [bind].
    + eexists. split; [reflexivity|]. apply (inv_step l st); auto; cbn [e_marked e_candidate e_name]; intros; try congruence; auto; rewrite orb_false_r; reflexivity.
    + destruct (seted st) eqn:SD; cbn [negb andb].
      { rewrite S. cbn [put bind]. eexists. split; [reflexivity|]. apply (inv_step l st); auto; cbn [e_marked e_candidate e_name]; rewrite ?SD; intros; try congruence; auto; rewrite orb_false_r; reflexivity. }
      destruct (okeys st) eqn:OK; cbn [andb].
      * rewrite S. cbn [put bind]. destruct (ident name) eqn:ID; (eexists; split; [reflexivity|]); apply (inv_step l st); auto; cbn [e_marked e_candidate e_name]; rewrite ?SD; intros; try congruence; auto.
        destruct H1; congruence.
      * rewrite S. cbn [put bind]. eexists. split; [reflexivity|]. apply (inv_step l st); auto; cbn [e_marked e_candidate e_name]; rewrite ?SD; intros; try congruence; auto.
    + rewrite S. cbn [put bind]. eexists. split; [reflexivity|]. apply (inv_step l st); auto; cbn [e_marked e_candidate e_name]; intros; try congruence; auto; rewrite orb_false_r; reflexivity.
Qed.

Lemma items_step : forall f its es l st, proper f ->
  inv l st -> asked_all sql uses ident f (map (@e_name E) l) its = Some es ->
  exists st', select_items sql uses ident f its st = Ok st' /\ inv (l ++ es) st'.
Proof.
  intros f its. induction its as [|it its IH]; intros es l st P I A; cbn [asked_all select_items] in *.
  - injection A as <-. exists st. rewrite app_nil_r. split; [reflexivity|exact I].
  - destruct (asked sql uses ident f (map (@e_name E) l) it) as [e1|] eqn:A1; [|discriminate].
    destruct (item_step f it e1 l st P I A1) as [st1 [B1 I1]]. rewrite B1. cbn [bind].
    rewrite <- map_app in A. destruct (asked_all sql uses ident f (map (@e_name E) (l ++ e1)) its) as [e2|] eqn:A2; [|discriminate].
    injection A as <-. destruct (IH e2 (l ++ e1) st1 P I1 A2) as [st2 [B2 I2]]. exists st2. split; [exact B2|].
    rewrite app_assoc. exact I2.
Qed.
End Proofs.

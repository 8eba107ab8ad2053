(** C67-C69: the columns of a result and its key. *)
From Verif Require Import Base Agg_Model Str_Model Group_Proofs Json_Proofs Union_Proofs Cols_Syntax Cols_Spec Cols_Model Cols_Proofs.
Open Scope nat_scope.

Section Props.
Variable E : Type.
Variable sql : E -> text.
Variable uses : E -> list (option text * text).
Variable ident : text -> bool.
Notation select := (select sql uses ident).
Notation asked_all := (asked_all sql uses ident).

(** C67: the columns of the result are the names asked for, each once, in the order of their first appearance, and each is computed from
    the last item with that name (a column expanded from a star gives way to every other). *)
Theorem select_list_columns : forall from_given f its l, proper f -> its <> [] -> asked_all f [] its = Some l ->
  exists c cols, select from_given f its = Ok c /\ c_columns c = Listed cols /\
    map fst cols = distinct (map (@e_name E) l) /\ forall n, assoc n cols = winner n l.
Proof.
  intros g f its l P N A. destruct (items_step E sql uses ident f its l [] (@start E) P (inv_start E) A) as [st [B I]].
  destruct I as [S _]. cbn [app] in S. unfold Cols_Model.select. destruct its as [|it its]; [congruence|]. rewrite B. cbn [bind].
  eexists. exists (built E l). split; [reflexivity|]. cbn [c_columns]. split; [exact S|]. split; [apply built_keys|]. intro n. apply built_assoc.
Qed.

Lemma winner_distinct : forall (l : list (entry E)) e, NoDup (map (@e_name E) l) -> In e l -> winner (e_name e) l = Some (e_source e).
Proof.
  intros l e N I.
  assert (F : filter (named (e_name e)) l = [e]).
  { induction l as [|x l IH]; [destruct I|]. cbn [map] in N. inversion N as [|? ? N1 N2]; subst. cbn [filter]. unfold named at 1.
    destruct I as [->|I].
    - rewrite text_eqb_refl. f_equal. clear - N1. induction l as [|y l IH]; [reflexivity|]. cbn [filter]. unfold named at 1.
      assert (text_eqb (e_name e) (e_name y) = false) as ->.
      { apply text_eqb_neq. intro H. apply N1. rewrite H. left. reflexivity. }
      apply IH. intro H. apply N1. right. exact H.
    - assert (text_eqb (e_name e) (e_name x) = false) as ->.
      { apply text_eqb_neq. intro H. apply N1. rewrite <- H. apply in_map. exact I. }
      exact (IH N2 I). }
  unfold winner. assert (G : filter (fun e0 => named (e_name e) e0 && e_explicit e0) l = filter (@e_explicit E) (filter (named (e_name e)) l)).
  { clear. induction l as [|x l IH]; [reflexivity|]. cbn [filter]. rewrite IH. destruct (named (e_name e) x); [reflexivity|]. reflexivity. }
  rewrite G, F. cbn [filter]. destruct (e_explicit e); reflexivity.
Qed.

(** With different names every item has its column, in the order of the select list. *)
Theorem select_list_distinct : forall from_given f its l, proper f -> its <> [] -> asked_all f [] its = Some l ->
  NoDup (map (@e_name E) l) ->
  exists c, select from_given f its = Ok c /\ c_columns c = Listed (map (fun e => (e_name e, e_source e)) l).
Proof.
  intros g f its l P N A D. destruct (select_list_columns g f its l P N A) as [c [cols [B [C [K W]]]]]. exists c. split; [exact B|].
  rewrite C. f_equal. rewrite distinct_id in K by exact D.
  assert (G : forall l0 cols, NoDup (map fst cols) -> map fst cols = map (@e_name E) l0 ->
            (forall e, In e l0 -> assoc (e_name e) cols = Some (e_source e)) -> cols = map (fun e => (e_name e, e_source e)) l0).
  { clear. induction l0 as [|e l0 IH]; intros [|[k v] cols] N K W; cbn [map fst] in *; try discriminate; [reflexivity|].
    injection K as -> K. inversion N as [|? ? N1 N2]; subst. f_equal.
    - specialize (W e (or_introl eq_refl)). cbn [assoc] in W. rewrite text_eqb_refl in W. congruence.
    - apply IH; auto. intros e' I. specialize (W e' (or_intror I)). cbn [assoc] in W.
      destruct (text_eqb (e_name e') (e_name e)) eqn:Z; [|exact W]. exfalso. apply text_eqb_spec in Z. apply N1. rewrite K, <- Z. apply in_map. exact I. }
  apply G; auto; [rewrite K; exact D|]. intros e I. rewrite W. apply winner_distinct; assumption.
Qed.

(** A select list with an unknown table is refused, unless a star over a table whose columns are not listed makes the result all of its
    columns. *)
Lemma everything_stays : forall f its st st', f_cols f = None -> schema st = Everything ->
  select_items sql uses ident f its st = Ok st' -> schema st' = Everything.
Proof.
  intros f its. induction its as [|it its IH]; intros st st' F S H; cbn [select_items] in H; [congruence|].
  destruct (select_item sql uses ident f it st) as [st1|] eqn:B; [|discriminate]. cbn [bind] in H.
  assert (S1 : schema st1 = Everything); [|exact (IH _ _ F S1 H)]. clear H IH.
  unfold select_item in B. destruct it as [|q| |]; try (rewrite S in B; discriminate).
  - unfold star in B. rewrite F in B. cbn in B. injection B as <-. reflexivity.
  - destruct (star ident f (Some q) st) as [[st2|]|] eqn:T; cbn [bind] in B; try discriminate. injection B as <-.
    unfold star in T. destruct (if opt_eqb (Some q) (f_alias f) then f_cols f else match assoc q (f_joins f) with Some c => c | None => None end) as [names|]; [|discriminate].
    destruct (star_columns ident f q names st) as [st3|] eqn:R; [|discriminate]. cbn [bind] in T. injection T as <-.
    revert R. induction names as [|n names IH]; cbn [star_columns]; intro R; [congruence|].
    destruct (in_schema n (schema st)); [exact (IH R)|]. exfalso. unfold select_column in R. cbv zeta in R. rewrite S in R. cbn [put] in R.
    destruct (of_primary f (Some q)); [discriminate|]. destruct (known f q); discriminate.
Qed.

Lemma asked_none : forall f it l st, proper f -> inv E l st -> asked sql uses ident f (map (@e_name E) l) it = None ->
  (exists e, select_item sql uses ident f it st = Err e) \/
  (it = IAll /\ f_cols f = None /\ exists st', select_item sql uses ident f it st = Ok st' /\ schema st' = Everything).
Proof.
  intros f it l st [PA [PC [PJ PD]]] I A. assert (S : schema st = Listed (built E l)) by apply I.
  destruct it as [|q|alias q n pk|alias k e]; cbn [asked] in A; unfold select_item.
  - right. unfold star_entries, behind in A. rewrite text_eqb_refl in A. destruct (f_cols f) eqn:F; [discriminate|]. split; [reflexivity|]. split; [reflexivity|].
    unfold star. rewrite F. cbn [bind]. eexists. split; reflexivity.
  - left. unfold star_entries in A. destruct (behind f q) eqn:F; [discriminate|]. unfold star.
    assert ((if opt_eqb (Some q) (f_alias f) then f_cols f else match assoc q (f_joins f) with Some c => c | None => None end) = None) as ->.
    { unfold behind, primary in F. unfold opt_eqb. unfold primary in PD. destruct (f_alias f); [exact F|].
      destruct (text_eqb q (f_origin f)) eqn:Z; [|exact F]. apply text_eqb_spec in Z. destruct (assoc q (f_joins f)) eqn:J; [|reflexivity].
      exfalso. apply (PD q); congruence. }
    eexists. reflexivity.
  - left. rewrite S. destruct (owner f q) eqn:O; [discriminate|]. unfold select_column. cbv zeta.
    unfold owner in O. destruct q as [x|]; [|discriminate]. unfold of_primary. change (tname f) with (primary f).
    destruct (text_eqb x (primary f)); [discriminate|]. unfold known. destruct (assoc x (f_joins f)); [discriminate|]. eexists. reflexivity.
  - left. rewrite S. destruct (match k with KConst => true | _ => forallb (fun u => owned f (fst u)) (uses e) end) eqn:U; [discriminate|].
    assert (FB : forallb (fun u : option text * text => of_primary f (fst u) || match fst u with Some x => known f x | None => false end) (uses e)
                 = forallb (fun u => owned f (fst u)) (uses e)).
    { clear. induction (uses e) as [|[q r] us IH]; [reflexivity|]. cbn [forallb]. rewrite IH. f_equal. cbn [fst].
      unfold owned, owner, of_primary, known, tname, primary. destruct q as [x|]; [|reflexivity].
      destruct (text_eqb x _); [reflexivity|]. destruct (assoc x (f_joins f)); reflexivity. }
    destruct k; [discriminate| |]; unfold calculate_column; rewrite FB, U; eexists; reflexivity.
Qed.

Theorem select_list_refused : forall from_given f its, proper f -> asked_all f [] its = None ->
  (exists e, select from_given f its = Err e) \/
  (In IAll its /\ f_cols f = None /\ exists c, select from_given f its = Ok c /\ c_columns c = Everything).
Proof.
  intros g f its P A.
  assert (G : forall its l st, inv E l st -> asked_all f (map (@e_name E) l) its = None ->
     (exists e, select_items sql uses ident f its st = Err e) \/
     (In IAll its /\ f_cols f = None /\ exists st', select_items sql uses ident f its st = Ok st' /\ schema st' = Everything)).
  { clear A its. induction its as [|it its IH]; intros l st I A; cbn [Cols_Spec.asked_all select_items] in *; [discriminate|].
    destruct (asked sql uses ident f (map (@e_name E) l) it) as [es|] eqn:A1.
    - destruct (item_step E sql uses ident f it es l st P I A1) as [st1 [B1 I1]]. rewrite B1. cbn [bind].
      rewrite <- map_app in A. destruct (asked_all f (map (@e_name E) (l ++ es)) its) eqn:A2; [discriminate|].
      destruct (IH (l ++ es) st1 I1 A2) as [[e H]|[H1 [H2 H3]]]; [left; exists e; exact H|right; split; [right; exact H1|split; assumption]].
    - destruct (asked_none f it l st P I A1) as [[e H]|[-> [F [st1 [B1 S1]]]]].
      + left. exists e. rewrite H. reflexivity.
      + rewrite B1. cbn [bind]. destruct (select_items sql uses ident f its st1) as [st2|e] eqn:B2; [|left; exists e; reflexivity].
        right. split; [left; reflexivity|]. split; [exact F|]. exists st2. split; [reflexivity|]. exact (everything_stays f its st1 st2 F S1 B2). }
  destruct (G its [] (@start E) (inv_start E) A) as [[e H]|[H1 [H2 [st [H3 H4]]]]]; unfold Cols_Model.select.
  - left. destruct its; [eexists; reflexivity|]. rewrite H. exists e. reflexivity.
  - right. split; [exact H1|]. split; [exact H2|]. destruct its; [destruct H1|]. rewrite H3. cbn [bind]. eexists. split; [reflexivity|exact H4].
Qed.

(** C68: a star over a table whose columns are not listed: the result is all columns of the table, whatever else the select list says, or the
    query is refused. *)
Theorem star_over_table : forall from_given f its, proper f -> f_cols f = None -> In IAll its ->
  (exists e, select from_given f its = Err e) \/ exists c, select from_given f its = Ok c /\ c_columns c = Everything.
Proof.
  intros g f its P F I.
  assert (A : forall seen, asked_all f seen its = None).
  { induction its as [|it its IH]; [destruct I|]. intro seen. cbn [Cols_Spec.asked_all]. destruct I as [->|I].
    - cbn [asked]. unfold star_entries, behind. rewrite text_eqb_refl, F. reflexivity.
    - destruct (asked sql uses ident f seen it); [|reflexivity]. rewrite (IH I). reflexivity. }
  destruct (select_list_refused g f its P (A [])) as [H|[_ [_ H]]]; [left; exact H|right; exact H].
Qed.

(** C69: the key of the result. *)
Theorem result_key : forall from_given f its l, proper f -> its <> [] -> asked_all f [] its = Some l ->
  exists c, select from_given f its = Ok c /\ c_output_key c = output_key ident from_given l.
Proof.
  intros g f its l P N A. destruct (items_step E sql uses ident f its l [] (@start E) P (inv_start E) A) as [st [B I]].
  destruct I as [S [_ [OK _]]]. cbn [app] in *. unfold Cols_Model.select. destruct its as [|it its]; [congruence|]. rewrite B. cbn [bind].
  eexists. split; [reflexivity|]. cbn [c_output_key]. rewrite S, OK. unfold output_key.
  destruct (filter (@e_marked E) l) as [|m ms]; [|reflexivity].
  destruct (filter (@e_candidate E) l) as [|x xs]; [|reflexivity]. cbn [map firstn]. rewrite built_keys.
  destruct g; [reflexivity|]. destruct (filter ident (distinct (map (@e_name E) l))); reflexivity.
Qed.

(** Marked columns are also the key the source is read by. *)
Theorem source_key_marked : forall from_given f its l, proper f -> its <> [] -> asked_all f [] its = Some l ->
  filter (@e_marked E) l <> [] ->
  exists c, select from_given f its = Ok c /\ c_input_key c = map (@e_origin E) (filter (@e_marked E) l).
Proof.
  intros g f its l P N A M. destruct (items_step E sql uses ident f its l [] (@start E) P (inv_start E) A) as [st [B I]].
  destruct I as [_ [_ [_ LK]]]. cbn [app] in *. unfold Cols_Model.select. destruct its as [|it its]; [congruence|]. rewrite B. cbn [bind].
  eexists. split; [reflexivity|]. cbn [c_input_key]. destruct (filter (@e_marked E) l) as [|m ms]; [congruence|]. rewrite LK. reflexivity.
Qed.

(** The columns of the key are columns of the result, unless it is the default id. *)
Theorem result_key_in_result : forall from_given f its l, proper f -> its <> [] -> asked_all f [] its = Some l ->
  exists c cols, select from_given f its = Ok c /\ c_columns c = Listed cols /\
    (c_output_key c = [t "id"] \/ forall k, In k (c_output_key c) -> In k (map fst cols)).
Proof.
  intros g f its l P N A. destruct (select_list_columns g f its l P N A) as [c [cols [B [C [K _]]]]].
  destruct (result_key g f its l P N A) as [c' [B' O]]. assert (c' = c) as -> by congruence. exists c, cols. split; [exact B|]. split; [exact C|].
  rewrite O, K. unfold output_key. destruct (filter (@e_marked E) l) as [|m ms] eqn:F.
  - destruct (filter (@e_candidate E) l) as [|x xs] eqn:G.
    + destruct g; [left; reflexivity|]. destruct (filter ident (distinct (map (@e_name E) l))) as [|n ns] eqn:H; [left; reflexivity|].
      right. intros k [<-|[]]. assert (I : In n (filter ident (distinct (map (@e_name E) l)))) by (rewrite H; left; reflexivity). apply filter_In in I. apply I.
    + right. intros k [<-|[]]. apply distinct_In. apply in_map. assert (I : In x (filter (@e_candidate E) l)) by (rewrite G; left; reflexivity). apply filter_In in I. apply I.
  - right. intros k I. apply distinct_In. rewrite <- F in I. apply in_map_iff in I as [e [<- I]]. apply in_map. apply filter_In in I. apply I.
Qed.
End Props.

(** Examples and refutations; expressions are their SQL texts. *)
Definition tbl : from := {| f_alias := Some (t "u"); f_origin := t "--.users"; f_cols := None; f_joins := [(t "o", None)] |}.
Definition sub : from := {| f_alias := Some (t "s"); f_origin := t "s"; f_cols := Some [t "id"; t "name"]; f_joins := [] |}.
Definition plain (n : text) : bool := forallb (fun c => (97 <=? c)%N && (c <=? 122)%N) n.
Definition no_uses (e : text) : list (option text * text) := [].

Lemma tbl_proper : proper tbl.
Proof.
  repeat split; try discriminate; cbn [f_cols f_joins tbl assoc].
  - intros q c. destruct (text_eqb q (t "o")); discriminate.
  - intros x H. destruct (text_eqb x (t "o")) eqn:Z; [|congruence]. apply text_eqb_spec in Z. subst. discriminate.
Qed.

Lemma sub_proper : proper sub.
Proof.
  repeat split; try discriminate; cbn [f_cols f_joins sub assoc]; [|congruence].
  intros c H. injection H as <-. repeat constructor; intros H; cbn in H; intuition discriminate.
Qed.

(** SELECT u.id, o.id, 1+2, name AS n FROM users u JOIN o *)
Example distinct_case : exists c, select (fun e => e) no_uses plain true tbl
    [ICol None (Some (t "u")) (t "id") false; ICol None (Some (t "o")) (t "id") false; IExp None KCalc (t "1+2"); ICol (Some (t "n")) None (t "name") false] = Ok c /\
  c_columns c = Listed [(t "id", SCol (t "u") (t "id")); (t "o.id", SCol (t "o") (t "id")); (t "1+2", SExp (t "1+2")); (t "n", SCol (t "u") (t "name"))] /\
  c_output_key c = [t "id"].
Proof. eexists. repeat split. Qed.

Example distinct_hyps : exists l, asked_all (fun e => e) no_uses plain tbl []
    [ICol None (Some (t "u")) (t "id") false; ICol None (Some (t "o")) (t "id") false; IExp None KCalc (t "1+2"); ICol (Some (t "n")) None (t "name") false] = Some l /\
  NoDup (map (@e_name text) l).
Proof.
  eexists. split; [reflexivity|]. cbn [map e_name]. vm_compute. repeat constructor; intro H; cbn in H; intuition discriminate.
Qed.

(** A subquery's star does not overwrite the columns before it, the columns after it overwrite its columns. *)
Example star_case : exists c, select (fun e => e) no_uses plain true sub [IExp (Some (t "id")) KConst (t "7"); IAll; IExp (Some (t "name")) KConst (t "8")] = Ok c /\
  c_columns c = Listed [(t "id", SExp (t "7")); (t "name", SExp (t "8"))].
Proof. eexists. repeat split. Qed.

(** C68: items are lost: the second of two columns with one name, *)
Theorem every_item_has_a_column_refuted :
  exists f its l c cols, proper f /\ asked_all (fun e : text => e) no_uses plain f [] its = Some l /\
    select (fun e => e) no_uses plain true f its = Ok c /\ c_columns c = Listed cols /\ length cols < length its /\
    ~ (forall e, In e l -> In (e_name e, e_source e) cols).
Proof.
  exists tbl, [ICol None None (t "a") false; ICol (Some (t "a")) None (t "b") false]. eexists. eexists. eexists.
  split; [exact tbl_proper|]. split; [reflexivity|]. split; [reflexivity|]. split; [reflexivity|]. split; [cbn; lia|].
  intro H. specialize (H _ (or_introl eq_refl)). cbn in H. destruct H as [H|[]]. discriminate.
Qed.

(** and everything before a star over a table. *)
Theorem item_before_star_refuted :
  exists f its c, proper f /\ length its = 2 /\ select (fun e : text => e) no_uses plain true f its = Ok c /\ c_columns c = Everything.
Proof. exists tbl, [IExp (Some (t "x")) KCalc (t "a+1"); IAll]. eexists. split; [exact tbl_proper|]. repeat split. Qed.

(** C69: a marked column of a joined table becomes the key by which the table of FROM is read. *)
Theorem source_key_of_source_refuted :
  exists f its c, proper f /\ select (fun e : text => e) no_uses plain true f its = Ok c /\
    its = [ICol None None (t "a") false; ICol None (Some (t "o")) (t "id") true] /\ c_input_key c = [t "id"].
Proof. exists tbl, [ICol None None (t "a") false; ICol None (Some (t "o")) (t "id") true]. eexists. split; [exact tbl_proper|]. repeat split. Qed.

Example marked_case : exists c, select (fun e : text => e) no_uses plain true tbl
   [ICol None None (t "a") false; ICol (Some (t "k")) None (t "b") true; ICol None None (t "c") true] = Ok c /\
   c_output_key c = [t "k"; t "c"] /\ c_input_key c = [t "b"; t "c"].
Proof. eexists. repeat split. Qed.

Print Assumptions select_list_columns.
Print Assumptions select_list_distinct.
Print Assumptions select_list_refused.
Print Assumptions star_over_table.
Print Assumptions result_key.
Print Assumptions source_key_marked.
Print Assumptions result_key_in_result.

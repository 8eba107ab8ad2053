(** C196-C200: references to tables. *)
From Coq Require Import Lia.
From Verif Require Import Base PyVal Insert_Model Annot_Model Annot_Spec Annot_Props Str_Model Str_Spec Str_Proofs Table_Syntax Table_Model Table_Spec Table_Proofs.
Open Scope nat_scope.

Section Props.
Variable up : N -> text.
Hypothesis stable : forall c, (128 <= c)%N -> upper up (up c) = up c.
Variable mapping : list (text * text).
Variable files : list database -> text -> list text -> option (list database * text * text).
Notation parse := (parse_table up mapping files).

(** The place of a reference that is qualified as [db], [table] by its parts. *)
Definition console (i : info) : Prop := i_db i = t "-" /\ i_name i = t "&1".
Definition stream (format : text) (i : info) (dbs dbs' : list database) : Prop :=
  i_name i = t "&1" /\ exists d, In d dbs' /\ (dbs' = dbs \/ dbs' = dbs ++ [d]) /\
  assoc (t "name") d = Some (i_db i) /\ assoc (t "driver") d = Some (t "textline") /\ assoc (t "format") d = Some format.

Lemma qualified_parts : forall r tb db full, qualified r tb db full ->
  (match r_catalog r with Some c => (Some c, match given (r_db r) with Some d => d ++ t "." ++ tb | None => tb end) | None => (given (r_db r), tb) end) = (db, full) /\ given db = db.
Proof.
  intros r tb db full Q. destruct Q as [d th al tb [->| ->]|d th al tb D|c d th al tb C [->| ->]|c d th al tb C D]; cbn [r_catalog r_db given]; try (split; reflexivity).
  - destruct d; [congruence|split; reflexivity].
  - destruct c; [congruence|split; reflexivity].
  - destruct c; [congruence|split; reflexivity].
  - destruct c; [congruence|]. destruct d; [congruence|]. split; reflexivity.
Qed.

Theorem table_names : forall env setting dbs r n tb opts db full,
  spelled (r_this r) n -> written (match assoc n mapping with Some m => m | None => n end) tb opts -> qualified r tb db full ->
  Forall (fun d => assoc (t "name") d <> None) dbs ->
  exists i dbs' more, parse env setting dbs r = Ok (i, dbs') /\ i_options i = opts ++ more /\
    i_table i = match r_alias r with Some (c :: a) => c :: a | _ => i_db i ++ t "." ++ i_name i end /\
    (In full [t "_"; t "."] -> console i /\ dbs' = dbs) /\
    (forall f, In f [t "txt"; t "csv"; t "json"] -> full = t "." ++ f -> stream f i dbs dbs') /\
    (~ special full -> forall d, db = Some d -> i_db i = d /\ i_name i = full /\ dbs' = dbs) /\
    (~ special full -> db = None ->
       match files dbs full (i_options i) with
       | Some place => place = (dbs', i_db i, i_name i)
       | None => i_db i = t "--" /\ i_name i = full /\ dbs' = dbs
       end).
Proof.
  intros env setting dbs r n tb opts db full S W Q F. unfold parse_table. rewrite (spelled_this _ _ env S). cbn [bind].
  change (origin_of mapping n) with (match assoc n mapping with Some m => m | None => n end). rewrite (split_options_written _ _ _ W).
  destruct (qualified_parts _ _ _ _ Q) as [E G]. cbv zeta. rewrite E, G.
  set (options := add_setting up setting opts).
  assert (exists more, options = opts ++ more) as [more Em].
  { unfold options, add_setting. destruct (given setting); [|exists []; symmetry; apply app_nil_r]. cbv zeta. destruct (mem _ opts); [exists []; symmetry; apply app_nil_r|eexists; reflexivity]. }
  destruct (mem full [t "_"; t "."]) eqn:M1.
  { eexists _, _, more. split; [reflexivity|]. split; [exact Em|]. split; [destruct (r_alias r) as [[|c a]|]; reflexivity|].
    apply mem_iff in M1. split; [intros _; split; [split; reflexivity|reflexivity]|]. split; [|split].
    - intros f If ->. exfalso. cbn in M1, If. decompose [or] If; try contradiction; subst f; decompose [or] M1; try contradiction; discriminate.
    - intros N. exfalso. apply N. cbn in M1 |- *. tauto.
    - intros N. exfalso. apply N. cbn in M1 |- *. tauto. }
  apply mem_no in M1. destruct (mem full [t ".txt"; t ".csv"; t ".json"]) eqn:M2.
  { apply mem_iff in M2. destruct (stdio (skipn 1 full) dbs) as [dbs' name] eqn:P. eexists _, _, more. split; [reflexivity|]. split; [exact Em|].
    split; [destruct (r_alias r) as [[|c a]|]; reflexivity|]. split; [intros K; contradiction|]. split; [|split].
    - intros f If ->. split; [reflexivity|]. cbn [i_db]. change (skipn 1 (t "." ++ f)) with f in P. unfold stdio in P.
      destruct (find _ dbs) as [d|] eqn:Fd.
      + assert (P1 := f_equal fst P). assert (P2 := f_equal snd P). cbn [fst snd] in P1, P2. subst dbs' name. clear P. apply find_some in Fd as [Id Td]. exists d. split; [exact Id|]. split; [left; reflexivity|].
        rewrite Forall_forall in F. specialize (F d Id). destruct (assoc (t "name") d) as [nm|]; [|congruence].
        destruct (assoc (t "driver") d) as [a|]; [|discriminate]. destruct (assoc (t "format") d) as [b|]; [|discriminate].
        apply andb_prop in Td as [T1 T2]. apply text_eqb_spec in T1, T2. subst a b. repeat split.
      + assert (P1 := f_equal fst P). assert (P2 := f_equal snd P). cbn [fst snd] in P1, P2. subst dbs' name. clear P. eexists. split; [apply in_or_app; right; left; reflexivity|]. split; [right; reflexivity|]. repeat split.
    - intros N. exfalso. apply N. cbn in M2 |- *. tauto.
    - intros N. exfalso. apply N. cbn in M2 |- *. tauto. }
  apply mem_no in M2. destruct db as [d|].
  { eexists _, _, more. split; [reflexivity|]. split; [exact Em|]. split; [destruct (r_alias r) as [[|c a]|]; reflexivity|].
    split; [intros K; contradiction|]. split; [|split].
    - intros f If ->. exfalso. apply M2. cbn in If |- *. decompose [or] If; try contradiction; subst f; tauto.
    - intros _ d' E'. injection E' as ->. repeat split.
    - intros _ K. discriminate K. }
  destruct (files dbs full options) as [[[dbs' d'] n']|] eqn:Fi.
  - eexists _, _, more. split; [reflexivity|]. split; [exact Em|]. split; [destruct (r_alias r) as [[|c a]|]; reflexivity|].
    split; [intros K; contradiction|]. split; [|split].
    + intros f If ->. exfalso. apply M2. cbn in If |- *. decompose [or] If; try contradiction; subst f; tauto.
    + intros _ d E'. discriminate E'.
    + intros _ _. cbn [i_options]. rewrite Fi. reflexivity.
  - eexists _, _, more. split; [reflexivity|]. split; [exact Em|]. split; [destruct (r_alias r) as [[|c a]|]; reflexivity|].
    split; [intros K; contradiction|]. split; [|split].
    + intros f If ->. exfalso. apply M2. cbn in If |- *. decompose [or] If; try contradiction; subst f; tauto.
    + intros _ d E'. discriminate E'.
    + intros _ _. cbn [i_options]. rewrite Fi. repeat split.
Qed.

(** The table an INSERT writes: qualified, or in the process' memory. *)
Definition target (dbs : list database) (db : option text) (full : text) (d : text) : Prop :=
  db = Some d \/ (db = None /\ d = t "--" /\ forall o, files dbs full o = None).

Lemma target_info : forall env setting dbs r n tb opts db full d,
  spelled (r_this r) n -> written (match assoc n mapping with Some m => m | None => n end) tb opts -> qualified r tb db full -> ~ special full -> target dbs db full d ->
  exists i, parse env setting dbs r = Ok (i, dbs) /\ i_db i = d /\ i_name i = full /\ i_options i = add_setting up setting opts.
Proof.
  intros env setting dbs r n tb opts db full d S W Q N T. unfold parse_table. rewrite (spelled_this _ _ env S). cbn [bind].
  change (origin_of mapping n) with (match assoc n mapping with Some m => m | None => n end). rewrite (split_options_written _ _ _ W).
  destruct (qualified_parts _ _ _ _ Q) as [E G]. cbv zeta. rewrite E, G.
  assert (mem full [t "_"; t "."] = false) as -> by (apply mem_no; intro K; apply N; cbn in K |- *; tauto).
  assert (mem full [t ".txt"; t ".csv"; t ".json"] = false) as -> by (apply mem_no; intro K; apply N; cbn in K |- *; tauto).
  destruct T as [->|(-> & -> & Fi)].
  - eexists. split; [reflexivity|]. repeat split.
  - rewrite Fi. eexists. split; [reflexivity|]. repeat split.
Qed.

Lemma output_of : forall i, i_name i <> t "_" -> insert_output up i = t "&." ++ i_db i ++ t "." ++ i_name i ++ t "::id use " ++ update_type up (i_options i).
Proof.
  intros i H. unfold insert_output. assert (text_eqb (i_name i) (t "_") = false) as -> by (apply text_eqb_neq; exact H). rewrite Bool.andb_false_r. reflexivity.
Qed.
Lemma clear_more : forall d full, clear (d ++ t "." ++ full) -> clear (t "&." ++ d ++ t "." ++ full).
Proof.
  intros d full C i K. change ((t "&." ++ d ++ t "." ++ full) ++ t ":") with (38%N :: 46%N :: (d ++ t "." ++ full) ++ t ":") in K.
  destruct i as [|[|i]].
  - apply (proj1 (occurs_zero _ _)) in K. discriminate K.
  - apply (proj1 (occurs_shift _ _ _ _)) in K. apply (proj1 (occurs_zero _ _)) in K. discriminate K.
  - apply (proj1 (occurs_shift _ _ _ _)) in K. apply (proj1 (occurs_shift _ _ _ _)) in K. exact (C i K).
Qed.

(** The type of update of INSERT ... VALUES and of INSERT ... SELECT. *)
Theorem insert_update_type : forall env setting use_output dbs r n tb opts db full d ty,
  spelled (r_this r) n -> written (match assoc n mapping with Some m => m | None => n end) tb opts -> qualified r tb db full ->
  ~ special full -> target dbs db full d -> clear (d ++ t "." ++ full) -> chosen (upper up) opts setting ty ->
  insert_into up mapping files env setting use_output dbs r FromValues = Ok (t "&." ++ d ++ t "." ++ full ++ t "::id use " ++ ty, dbs) /\
  forall k keys, insert_into up mapping files env setting use_output dbs r (FromSelect (k :: keys)) =
    Ok (t "&." ++ d ++ t "." ++ full ++ t "::" ++ join (t "+") (k :: keys) ++ t " use " ++ ty, dbs).
Proof.
  intros env setting use_output dbs r n tb opts db full d ty S W Q N T C Ch.
  destruct (target_info env setting _ _ _ _ _ _ _ _ S W Q N T) as (i & P & I1 & I2 & I3). destruct (chosen_type up stable _ _ _ Ch) as [U B].
  unfold insert_into. rewrite P. cbn [bind fst snd]. rewrite output_of by (rewrite I2; intro K; apply N; rewrite K; left; reflexivity). rewrite I1, I2, I3, U. split; [reflexivity|].
  intros k keys. f_equal. f_equal. unfold select_output.
  assert (E1 : t "&." ++ d ++ t "." ++ full ++ t "::id use " ++ ty = (t "&." ++ d ++ t "." ++ full) ++ t "::" ++ t "id use " ++ ty) by (rewrite <- !app_assoc; reflexivity).
  assert (E2 : t "&." ++ d ++ t "." ++ full ++ t "::id use " ++ ty = (t "&." ++ d ++ t "." ++ full ++ t "::id") ++ t " use " ++ ty) by (rewrite <- !app_assoc; reflexivity).
  assert (E3 : t "&." ++ d ++ t "." ++ full ++ t "::id use " ++ ty = (t "&." ++ d ++ t "." ++ full) ++ t "::id use " ++ ty) by (rewrite <- !app_assoc; reflexivity).
  rewrite E1 at 1. rewrite (head_clear _ _ (clear_more _ _ C)). rewrite E2 at 1. rewrite infix_use. rewrite E3. unfold parts. rewrite last_use; [|exact B|lia].
  unfold key_text. rewrite <- !app_assoc. reflexivity.
Qed.

(** INSERT ... UNION writes with the type I whatever is written. *)
Definition quiet (k : text) : Prop := ~ In 58%N k /\ ~ In 32%N k.
Lemma key_quiet : forall k keys, Forall quiet (k :: keys) -> quiet (join (t "+") (k :: keys)).
Proof.
  intros k keys. revert k. induction keys as [|y keys IH]; intros k H; [inversion H; assumption|].
  inversion H as [|? ? Hk Hr]; subst. specialize (IH y Hr). change (join (t "+") (k :: y :: keys)) with (k ++ 43%N :: join (t "+") (y :: keys)).
  destruct Hk as [A1 A2], IH as [B1 B2]. split; intro K; apply in_app_or in K as [K|[K|K]]; try contradiction; discriminate K.
Qed.
Lemma occurs_in : forall d s i c, occurs_at d s i -> In c d -> In c s.
Proof. intros d s i c (p & r & -> & _) I. apply in_or_app. right. apply in_or_app. left. exact I. Qed.
Lemma union_keys : forall k keys acc, Forall quiet (k :: keys) -> snd acc = t "I" ->
  union_step acc (k :: keys) = (match fst acc with Some x => Some x | None => Some (join (t "+") (k :: keys)) end, t "I").
Proof.
  intros k keys [key ty] H E. cbn [snd fst] in *. subst ty. unfold union_step.
  assert (Q := key_quiet _ _ H).
  assert (parts (t " use ") (last (parts (t "::") (select_output (k :: keys) None (t "&.-.&1::id"))) []) = [join (t "+") (k :: keys); t "I"]) as ->; [|destruct key; reflexivity].
  unfold select_output. change (hd [] (parts (t "::") (t "&.-.&1::id"))) with (t "&.-.&1"). change (infixb (t " use ") (t "&.-.&1::id")) with false. cbv iota beta. cbn [given key_text].
  set (K := join (t "+") (k :: keys)) in *. clearbody K. destruct Q as [Q1 Q2]. unfold parts.
  rewrite split_head; [|discriminate|].
  - rewrite last_cons by apply split_nonempty.
    assert (split_go (t "::") 0 [] (K ++ t " use " ++ t "I") = [K ++ t " use " ++ t "I"]) as ->.
    { assert (X : forall s cur, ~ In 58%N s -> split_go (t "::") 0 cur s = [rev cur ++ s]).
      { clear. induction s as [|c s IH]; intros cur H; [cbn; rewrite app_nil_r; reflexivity|]. cbn [split_go].
        assert (prefixb (t "::") (c :: s) = false) as ->.
        { destruct (prefixb (t "::") (c :: s)) eqn:P; [|reflexivity]. exfalso. apply prefixb_spec in P as [r E]. injection E as E1 E2. apply H. left. exact E1. }
        rewrite IH by (intro X; apply H; right; exact X). cbn [rev]. rewrite <- app_assoc. reflexivity. }
      rewrite X; [reflexivity|]. intro I. apply in_app_or in I as [I|I]; [contradiction|]. cbn in I. decompose [or] I; try contradiction; discriminate. }
    cbn [last]. rewrite split_head; [|discriminate|].
    + reflexivity.
    + intros i L O. destruct O as (p & r & E & Lp). apply Q2.
      assert (X : nth_error (K ++ t " use " ++ t "I") i = Some 32%N). { rewrite E, nth_error_app2 by lia. replace (i - length p) with 0 by lia. reflexivity. }
      rewrite nth_error_app1 in X by exact L. apply nth_error_In in X. exact X.
  - intros i L O. destruct O as (p & r & E & Lp). cbn in L.
    assert (X : nth_error (t "&.-.&1") i = Some 58%N).
    { rewrite <- (nth_error_app1 (t "&.-.&1") (t "::" ++ K ++ t " use " ++ t "I")) by (cbn; lia). rewrite E, nth_error_app2 by lia. replace (i - length p) with 0 by lia. reflexivity. }
    clear -X L. destruct i as [|[|[|[|[|[|i]]]]]]; try discriminate X. lia.
Qed.
Theorem insert_union_type_refuted : forall env setting use_output dbs r n tb opts db full d k keys selects,
  spelled (r_this r) n -> written (match assoc n mapping with Some m => m | None => n end) tb opts -> qualified r tb db full ->
  ~ special full -> target dbs db full d -> clear (d ++ t "." ++ full) -> Forall (fun ks => ks <> [] /\ Forall quiet ks) ((k :: keys) :: selects) ->
  insert_into up mapping files env setting use_output dbs r (FromUnion ((k :: keys) :: selects)) =
    Ok (t "&." ++ d ++ t "." ++ full ++ t "::" ++ join (t "+") (k :: keys) ++ t " use I", dbs).
Proof.
  intros env setting use_output dbs r n tb opts db full d k keys selects S W Q N T C H.
  destruct (target_info env setting _ _ _ _ _ _ _ _ S W Q N T) as (i & P & I1 & I2 & I3).
  unfold insert_into. rewrite P. cbn [bind fst snd]. rewrite output_of by (rewrite I2; intro K; apply N; rewrite K; left; reflexivity). rewrite I1, I2.
  f_equal. f_equal. unfold union_output. inversion H as [|? ? [_ H1] H2]; subst. cbn [fold_left]. rewrite (union_keys k keys (None, t "I") H1 eq_refl). cbn [fst].
  assert (E : forall key, fold_left union_step selects (Some key, t "I") = (Some key, t "I")).
  { clear -H2. induction H2 as [|ks selects [H1 H3] H2 IH]; intros key; [reflexivity|]. cbn [fold_left]. destruct ks as [|x ks]; [congruence|]. rewrite union_keys by (exact H3 || reflexivity). apply IH. }
  rewrite E.
  assert (E1 : t "&." ++ i_db i ++ t "." ++ i_name i ++ t "::id use " ++ update_type up (i_options i) = (t "&." ++ i_db i ++ t "." ++ i_name i) ++ t "::" ++ t "id use " ++ update_type up (i_options i)) by (rewrite <- !app_assoc; reflexivity).
  rewrite E1, (head_clear _ _ (clear_more _ _ C)), <- !app_assoc. reflexivity.
Qed.

(** Tables named by variables. *)
Variable str_of : val -> text.
Notation read := (read up mapping files str_of).
Definition table_variable (x : text) (al : option text) : reference := mkref None None (FromVariable x) al.

Definition marker (x : text) : text := t "#{env_variable__@" ++ x ++ t "}".
Lemma marker_inv : forall s (x : text), prefixb (t "#{env_variable__@") s && match last s 0%N with 125%N => true | _ => false end = true -> exists y, s = marker y.
Proof.
  intros s x H. apply andb_prop in H as [H1 H2]. apply prefixb_spec in H1 as [r E].
  destruct (last s 0%N) as [|p] eqn:L; [discriminate|]. assert (N.pos p = 125%N) as L2.
  { destruct (N.eq_dec (N.pos p) 125) as [K|K]; [exact K|]. exfalso. revert H2. repeat (destruct p as [p|p|]; try discriminate). intro. apply K. reflexivity. }
  rewrite L2 in L. subst s. clear H2 L2 p x. destruct r as [|c r] using rev_ind; [discriminate L|]. exists r. rewrite app_assoc, last_last in L. subst c. reflexivity.
Qed.

Theorem table_variable_read : forall x al dbs env env', ~ In 46%N x -> ~ In 60%N x ->
  assoc (marker x) mapping = None -> files dbs (marker x) [] = None ->
  (env (t "@" ++ x) = None -> exists e, read env env' dbs (table_variable x al) = Err e) /\
  (forall s, env (t "@" ++ x) = Some (VStr s) -> read env env' dbs (table_variable x al) = read env env' dbs (mkref None None (Named s) al)) /\
  (forall s, env (t "@" ++ x) = Some VNone -> env' (t "@" ++ x) = Some (VStr s) ->
     read env env' dbs (table_variable x al) = Ok (t "--." ++ s) /\
     (written s s [] -> assoc s mapping = None -> ~ special s -> files dbs s [] = None -> (forall y, ~ exists r, s = marker y ++ r) ->
      read env env' dbs (mkref None None (Named s) al) = Ok (t "--." ++ s))).
Proof.
  intros x al dbs env env' Nx Ny Hm Hf. split; [|split].
  - intros E. unfold Table_Model.read, parse_table. cbn [table_variable r_this this_name]. rewrite E. cbn [bind]. eexists. reflexivity.
  - intros s E. unfold Table_Model.read, parse_table. cbn [table_variable r_this this_name]. rewrite E. reflexivity.
  - intros s E E'. split.
    + unfold Table_Model.read, parse_table. cbn [table_variable r_this this_name]. rewrite E. cbn [bind]. change (t "#{env_variable__@" ++ x ++ t "}") with (marker x).
      unfold origin_of. rewrite Hm. rewrite (split_options_written (marker x) (marker x) []).
      2:{ apply written_plain. left. unfold marker. intro K. apply in_app_or in K as [K|K]; [cbn in K; decompose [or] K; try contradiction; discriminate|]. apply in_app_or in K as [K|K]; [contradiction|]. cbn in K. decompose [or] K; try contradiction; discriminate. }
      cbv zeta. cbn [table_variable r_catalog r_db given]. change (add_setting up None []) with (@nil text). change (mem (marker x) [t "_"; t "."]) with false. change (mem (marker x) [t ".txt"; t ".csv"; t ".json"]) with false. cbv iota. rewrite Hf. cbn [bind fst i_db i_name].
      unfold run_name, parts. change (t "--" ++ t "." ++ marker x) with (t "--" ++ t "." ++ marker x). rewrite split_head; [|discriminate|].
      2:{ intros i L K. cbn in L. change (t "--" ++ t "." ++ marker x) with (45%N :: 45%N :: t "." ++ marker x) in K. destruct i as [|[|i]]; [| |lia].
          - apply (proj1 (occurs_zero _ _)) in K. discriminate K.
          - apply (proj1 (occurs_shift _ _ _ _)) in K. apply (proj1 (occurs_zero _ _)) in K. discriminate K. }
      assert (split_go (t ".") 0 [] (marker x) = [marker x]) as ->.
      { rewrite <- (app_nil_r (marker x)) at 1. change (t ".") with [46%N]. rewrite split_part; [cbn [split_go]; rewrite app_nil_r, rev_involutive; reflexivity|].
        unfold marker. intro K. apply in_app_or in K as [K|K]; [cbn in K; decompose [or] K; try contradiction; discriminate|]. apply in_app_or in K as [K|K]; [contradiction|]. cbn in K. decompose [or] K; try contradiction; discriminate. }
      assert (prefixb (t "#{env_variable__@") (marker x) = true) as -> by (apply prefixb_spec; eexists; reflexivity).
      assert (last (marker x) 0%N = 125%N) as -> by (unfold marker; rewrite app_assoc; apply last_last). cbv iota beta. cbn [andb rev app].
      assert (firstn (length (marker x) - 17) (skipn 16 (marker x)) = t "@" ++ x) as ->.
      { unfold marker. change (skipn 16 (t "#{env_variable__@" ++ x ++ t "}")) with ((t "@" ++ x) ++ t "}"). rewrite app_length. change (length (t "#{env_variable__@")) with 17.
        replace (17 + length (x ++ t "}") - 17) with (length (t "@" ++ x)) by (rewrite !app_length; cbn; lia). rewrite firstn_app, firstn_all, Nat.sub_diag. cbn [firstn]. apply app_nil_r. }
      rewrite E'. reflexivity.
    + intros W M N Fi Np. unfold Table_Model.read, parse_table. cbn [r_this this_name bind]. unfold origin_of. rewrite M, (split_options_written s s [] W).
      cbv zeta. cbn [table_variable r_catalog r_db given]. change (add_setting up None []) with (@nil text).
      assert (mem s [t "_"; t "."] = false) as -> by (apply mem_no; intro K; apply N; cbn in K |- *; tauto).
      assert (mem s [t ".txt"; t ".csv"; t ".json"] = false) as -> by (apply mem_no; intro K; apply N; cbn in K |- *; tauto). rewrite Fi. cbn [bind fst i_db i_name].
      unfold run_name, parts. rewrite split_head; [|discriminate|].
      2:{ intros i L K. cbn in L. change (t "--" ++ t "." ++ s) with (45%N :: 45%N :: t "." ++ s) in K. destruct i as [|[|i]]; [| |lia].
          - apply (proj1 (occurs_zero _ _)) in K. discriminate K.
          - apply (proj1 (occurs_shift _ _ _ _)) in K. apply (proj1 (occurs_zero _ _)) in K. discriminate K. }
      destruct (split_go (t ".") 0 [] s) as [|p ps] eqn:Sp; [exfalso; exact (split_nonempty _ _ _ _ Sp)|].
      destruct (prefixb (t "#{env_variable__@") p && match last p 0%N with 125%N => true | _ => false end) eqn:P; [|reflexivity].
      exfalso. destruct (marker_inv p [] P) as [y Ey]. apply (Np y).
      assert (J : forall q cur p ps, split_go (t ".") 0 cur q = p :: ps -> exists r, rev cur ++ q = p ++ r).
      { clear. induction q as [|c q IH]; intros cur p ps H; cbn [split_go] in H.
        - injection H as <- _. exists []. reflexivity.
        - destruct (prefixb (t ".") (c :: q)).
          + injection H as <- _. eexists. reflexivity.
          + apply IH in H as [r H]. exists r. cbn [rev] in H. rewrite <- app_assoc in H. exact H. }
      destruct (J s [] p ps Sp) as [r Er]. exists r. rewrite <- Ey. exact Er.
Qed.
End Props.
Print Assumptions table_names.
Print Assumptions insert_update_type.
Print Assumptions insert_union_type_refuted.
Print Assumptions table_variable_read.

(** Every INSERT has a type. *)
Theorem update_type_exists : forall up opts setting, exists ty, chosen (upper up) opts setting ty.
Proof.
  intros up opts setting.
  assert (D : forall x, {In (upper up x) type_names} + {~ In (upper up x) type_names}) by (intros x; apply in_dec, text_eq_dec).
  assert (F : (exists pre o post, opts = pre ++ o :: post /\ In (upper up o) type_names /\ forall x, In x pre -> ~ In (upper up x) type_names) \/ (forall x, In x opts -> ~ In (upper up x) type_names)).
  { induction opts as [|o opts IH]; [right; intros x []|]. destruct (D o) as [Y|N]; [left; exists [], o, opts; repeat split; [exact Y|intros x []]|].
    destruct IH as [(pre & o' & post & -> & Y & H)|H].
    - left. exists (o :: pre), o', post. repeat split; [exact Y|]. intros x [<-|I]; [exact N|apply H, I].
    - right. intros x [<-|I]; [exact N|apply H, I]. }
  destruct F as [(pre & o & post & -> & Y & H)|H]; [exists o; apply chosen_option; assumption|].
  destruct setting as [s|]; [|exists (t "I"); apply chosen_default; [exact H|discriminate]].
  destruct (in_dec text_eq_dec (upper up s) (map fst setting_names)) as [I|N].
  - apply in_map_iff in I as ([k ty] & E & I). cbn [fst] in E. subst k. exists ty. apply chosen_setting; assumption.
  - exists (t "I"). apply chosen_default; [exact H|]. intros s' E. injection E as <-. exact N.
Qed.
Print Assumptions update_type_exists.

(** Not so: FROM @t is not the table the variable names when the query runs, as if that name had been written. *)
Definition no_files : list database -> text -> list text -> option (list database * text * text) := fun _ _ _ => None.
Definition csv_files : list database -> text -> list text -> option (list database * text * text) :=
  fun dbs n _ => if text_eqb n (t "a.csv") then Some (dbs, t "dir__data", n) else None.
Definition at_t (v : val) : text -> option val := fun k => if text_eqb k (t "@t") then Some v else None.
Theorem table_variable_refuted : forall up str_of,
  (* the variable was assigned after the statement had been compiled *)
  read up [] no_files str_of (at_t (VStr (t "a"))) (at_t (VStr (t "b"))) [] (table_variable (t "t") None) = Ok (t "--.a") /\
  read up [] no_files str_of (at_t (VStr (t "a"))) (at_t (VStr (t "b"))) [] (mkref None None (Named (t "b")) None) = Ok (t "--.b") /\
  (* the variable is still NULL *)
  read up [] no_files str_of (at_t VNone) (at_t VNone) [] (table_variable (t "t") None) = Ok (t "--.None") /\
  (* the variable names a file *)
  read up [] csv_files str_of (at_t VNone) (at_t (VStr (t "a.csv"))) [] (table_variable (t "t") None) = Ok (t "--.a.csv") /\
  read up [] csv_files str_of (at_t VNone) (at_t (VStr (t "a.csv"))) [] (mkref None None (Named (t "a.csv")) None) = Ok (t "dir__data.a.csv").
Proof. intros. repeat split. Qed.
Print Assumptions table_variable_refuted.

(** Cases that meet the hypotheses. *)
Definition keep (c : N) : text := [c].
Lemma keep_stable : forall c, (128 <= c)%N -> upper keep (keep c) = keep c.
Proof. intros c H. unfold upper, keep. cbn [flat_map]. assert ((c <? 128)%N = false) as -> by (apply N.ltb_ge; exact H). reflexivity. Qed.
Definition ref1 : reference := mkref (Some (t "c")) (Some (t "d")) (Named (t "x<a,ui>")) None.
Lemma ref1_ok : spelled (r_this ref1) (t "x<a,ui>") /\ written (t "x<a,ui>") (t "x") [t "a"; t "ui"] /\ qualified ref1 (t "x") (Some (t "c")) (t "d.x") /\
  ~ special (t "d.x") /\ clear (t "c" ++ t "." ++ t "d.x") /\ chosen (upper keep) [t "a"; t "ui"] (Some (t "update")) (t "ui").
Proof.
  split; [constructor|]. split.
  { change (t "x<a,ui>") with (t "x" ++ 60%N :: commas [t "a"; t "ui"] ++ 62%N :: []). constructor; try (cbn; intuition discriminate).
    intros o [<-|[<-|[]]]; cbn; intuition discriminate. }
  split; [apply (qualified_full (t "c") (t "d")); discriminate|]. split; [cbn; intuition discriminate|]. split.
  - intros i (p & r & E & L). do 7 (destruct p as [|? p]; [discriminate E|try discriminate E; injection E as _ E]).
  - apply (chosen_option _ [t "a"] (t "ui") []); [cbn; tauto|]. intros x [<-|[]]. cbn. intuition discriminate.
Qed.
Example insert_update_type_example :
  insert_into keep [] no_files (fun _ => None) (Some (t "update")) None [] ref1 (FromSelect [t "k"; t "l"]) = Ok (t "&.c.d.x::k+l use ui", []) /\
  insert_into keep [] no_files (fun _ => None) (Some (t "update")) None [] ref1 (FromUnion [[t "k"; t "l"]; [t "m"]]) = Ok (t "&.c.d.x::k+l use I", []).
Proof.
  destruct ref1_ok as (A & B & C & D & E & F). split.
  - apply (proj2 (insert_update_type keep keep_stable [] no_files (fun _ => None) (Some (t "update")) None [] ref1 _ _ _ _ _ _ _ A B C D (or_introl eq_refl) E F) (t "k") [t "l"]).
  - apply (insert_union_type_refuted keep [] no_files (fun _ => None) (Some (t "update")) None [] ref1 _ _ _ _ _ _ (t "k") [t "l"] [[t "m"]] A B C D (or_introl eq_refl) E).
    repeat constructor; try discriminate; cbn; intuition discriminate.
Qed.
Example table_names_example : exists i, parse_table keep [] no_files (fun _ => None) None [] (mkref None None (Named (t ".csv")) None) = Ok (i, [[(t "name", t "stdio-csv"); (t "driver", t "textline"); (t "format", t "csv")]])
  /\ i_db i = t "stdio-csv" /\ i_name i = t "&1".
Proof. eexists. split; [reflexivity|split; reflexivity]. Qed.
Example table_variable_example : read keep [] no_files (fun _ => []) (at_t VNone) (at_t (VStr (t "b"))) [] (table_variable (t "t") None) = Ok (t "--.b").
Proof.
  refine (proj1 (proj2 (proj2 (table_variable_read keep [] no_files (fun _ => []) (t "t") None [] (at_t VNone) (at_t (VStr (t "b"))) _ _ eq_refl eq_refl)) (t "b") eq_refl eq_refl)); cbn; intuition discriminate.
Qed.

(** C127, C128: raw SQL blocks in statements. *)
From Verif Require Import Base PyVal Str_Model Str_Proofs Interp_Props Agg_Model Utils_Model Utils_Proofs Config_Model Config_Spec Config_Props Config_Sets Config_Session Json_Proofs Stmt_Syntax Stmt_Spec Stmt_Model Stmt_Proofs Stmt_Props Raw_Spec Raw_Model Raw_Proofs.
Local Open Scope nat_scope.

Section Raw.
Variables Q C D : Type.
Variable m : machine Q C D.
Variable word : N -> bool.
Notation sp := (m_sp m).
Hypothesis sane : sane_chars sp word.
Notation ok := (block_ok sp word).

Definition parts_ok (rest : list (block * text)) : Prop := Forall (fun bl => ok (fst bl) /\ quiet sp (snd bl)) rest.
(** Every block is as written or replaced by its name. *)
Definition choice (g : block -> text) : Prop := forall b, ok b -> g b = b_text b \/ g b = b_name b.
Lemma block_parts : forall b, ok b -> part word (b_db b) /\ part word (b_view b) /\ sql_ok sp (b_sql b).
Proof. intros b K. destruct K; cbn; auto. Qed.
Lemma written_cons : forall g first b l rest, written g first ((b, l) :: rest) = first ++ g b ++ written g l rest.
Proof. intros. unfold written. cbn [map concat fst snd]. rewrite <- app_assoc. reflexivity. Qed.
Lemma written_nil : forall g first, written g first [] = first.
Proof. intros. unfold written. cbn [map concat]. apply app_nil_r. Qed.
Lemma name_first : forall d v s r, part word d -> part word v -> named d v ++ s <> 42%N :: r.
Proof.
  intros d v s r Pd Pv E. assert (Nn : named d v <> []) by (unfold named; destruct d; discriminate). destruct (named d v) as [|n0 n] eqn:En; [contradiction|].
  cbn [app] in E. assert (n0 = 42%N) as -> by congruence. destruct (part_chars word d v 42%N Pd Pv) as [W|W]; [rewrite En; left; reflexivity| |discriminate].
  apply (proj2 (proj2 sane)) in W. apply (proj2 W). right. left. reflexivity.
Qed.
Lemma star_first : forall c s, star sp (c :: s) -> c = 42%N.
Proof. intros c s (w & r & _ & E). congruence. Qed.
Lemma block_safe : forall g b s, choice g -> ok b -> safe sp (g b ++ s) /\ starless sp (g b ++ s).
Proof.
  intros g b s Cg Kb. destruct (Cg b Kb) as [->| ->].
  - destruct (block_tail sp word sane b Kb) as (r & -> & _ & _). split; [|intro S; apply star_first in S; discriminate].
    apply (safe_first sp word sane 47%N); [exists [], ((42%N :: r) ++ s); split; [reflexivity|constructor]|apply (sp_no' sp word sane)|vm_compute; intuition discriminate].
  - destruct (block_parts b Kb) as (Pd & Pv & _). change (b_name b) with (named (b_db b) (b_view b)).
    split; [apply (named_safe sp word sane); assumption|]. intros (w & r & _ & E). exact (name_first _ _ _ _ Pd Pv E).
Qed.
(** After a text follows a block or nothing. *)
Definition rest_text (g : block -> text) (rest : list (block * text)) : text := match rest with [] => [] | (b, l) :: rest => g b ++ written g l rest end.
Lemma written_rest : forall g first rest, written g first rest = first ++ rest_text g rest.
Proof. intros g first [|[b l] rest]; [rewrite written_nil; symmetry; apply app_nil_r|apply written_cons]. Qed.
Lemma rest_safe : forall g rest, choice g -> parts_ok rest -> safe sp (rest_text g rest) /\ starless sp (rest_text g rest).
Proof.
  intros g [|[b l] rest] Cg P; [split; [apply safe_nil|intros (w & r & _ & E); discriminate]|]. inversion P as [|x y [Kb _] _]; subst. apply block_safe; assumption.
Qed.
Lemma written_starless : forall g l rest, choice g -> parts_ok rest -> quiet sp l -> no_star sp l (rest_text g rest) /\ starless sp (written g l rest).
Proof.
  intros g l rest Cg P Ql. destruct (rest_safe g rest Cg P) as [S1 S2]. assert (N : no_star sp l (rest_text g rest)) by (apply (no_star_quiet sp); assumption).
  split; [exact N|]. rewrite written_rest. destruct l as [|c l]; [exact S2|]. exact (N [] (c :: l) eq_refl ltac:(discriminate)).
Qed.
Lemma found : forall rest first f, quiet sp first -> parts_ok rest -> length (written b_text first rest) < f ->
  find_raws sp word f (written b_text first rest) = map (fun bl => (b_text (fst bl), b_name (fst bl), b_sql (fst bl))) rest.
Proof.
  assert (Cg : choice b_text) by (intros b _; left; reflexivity).
  induction rest as [|[b l] rest IH]; intros first f Qf P L; rewrite written_rest in *; rewrite app_length in L;
    destruct (written_starless b_text first _ Cg P Qf) as [N _]; destruct (rest_safe b_text _ Cg P) as [_ St]; rewrite (find_skip sp word) by (try assumption; lia).
  - cbn [rest_text map]. destruct (f - length first) as [|k] eqn:Ek; reflexivity.
  - inversion P as [|x y [Kb Ql] P']; subst. cbn [fst snd rest_text] in *. rewrite app_length in L.
    assert (0 < length (b_text b)) by (destruct (block_tail sp word sane b Kb) as (r & -> & _); cbn; lia).
    destruct (f - length first) as [|k] eqn:Ek; [lia|]. cbn [find_raws]. rewrite (match_block sp word sane) by exact Kb. rewrite IH by (try assumption; lia). cbn [map fst].
    do 3 f_equal. rewrite app_length. replace (length (b_text b) + length (written b_text l rest) - length (written b_text l rest)) with (length (b_text b) + 0) by lia.
    rewrite firstn_app_2. cbn [firstn]. apply app_nil_r.
Qed.
Lemma same_text : forall b b', ok b -> ok b' -> b_text b = b_text b' -> b_name b = b_name b'.
Proof.
  intros b b' K K' E. pose proof (match_block sp word sane b [] K) as M. pose proof (match_block sp word sane b' [] K') as M'. rewrite E, M' in M. congruence.
Qed.
Lemma name_not_text : forall b b', ok b -> ok b' -> b_name b <> b_text b'.
Proof.
  intros b b' K K' E. destruct (block_tail sp word sane b' K') as (r & Et & _). rewrite Et in E. destruct (block_parts b K) as (Pd & Pv & _).
  destruct (part_chars word (b_db b) (b_view b) 47%N Pd Pv) as [W|W]; [change (named (b_db b) (b_view b)) with (b_name b); rewrite E; left; reflexivity| |discriminate].
  apply (proj2 (proj2 sane)) in W. apply (proj2 W). left. reflexivity.
Qed.
Definition replace_in (b0 : block) (g : block -> text) : block -> text := fun b => if text_eqb (g b) (b_text b0) then b_name b0 else g b.
Lemma replaced : forall b0 g, ok b0 -> choice g -> forall rest first, quiet sp first -> parts_ok rest ->
  py_replace (written g first rest) (b_text b0) (b_name b0) = written (replace_in b0 g) first rest.
Proof.
  intros b0 g K0 Cg. destruct (block_tail sp word sane b0 K0) as (r0 & E0 & _ & _).
  assert (H0 : exists r, b_text b0 = 47%N :: r /\ star sp r).
  { pose proof (match_block sp word sane b0 [] K0) as M. rewrite app_nil_r in M. exact (match_star sp word _ _ M). }
  assert (NE : b_text b0 <> []) by (rewrite E0; discriminate).
  induction rest as [|[b l] rest IH]; intros first Qf P; rewrite !(written_rest _ first); destruct (written_starless g first _ Cg P Qf) as [N _]; destruct (rest_safe g _ Cg P) as [_ St];
    rewrite replace_free with (sp := sp) by assumption; f_equal.
  - cbn [rest_text]. apply replace_nil, NE.
  - inversion P as [|x y [Kb Ql] P']; subst. cbn [fst snd rest_text] in *. rewrite <- IH by assumption. destruct (written_starless g l _ Cg P' Ql) as [_ Sl].
    unfold replace_in at 1. destruct (text_eqb (g b) (b_text b0)) eqn:Eb.
    + apply text_eqb_spec in Eb. rewrite Eb, replace_hit by exact NE. reflexivity.
    + apply text_eqb_neq in Eb. destruct (Cg b Kb) as [Eg|Eg]; rewrite Eg in *.
      * destruct (block_tail sp word sane b Kb) as (r & Et & _ & Ns). rewrite Et. cbn [app]. rewrite replace_skip; [|exact NE|].
        -- rewrite replace_skip; [|exact NE|rewrite E0; reflexivity]. rewrite replace_free with (sp := sp) by (auto). reflexivity.
        -- destruct (prefixb _ _) eqn:Pf; [exfalso|reflexivity]. apply prefixb_spec in Pf. destruct Pf as (x & Pf). apply Eb.
           assert (Pf' : b_text b ++ written g l rest = b_text b0 ++ x) by (rewrite Et; exact Pf).
           pose proof (match_block sp word sane b (written g l rest) Kb) as M. rewrite Pf', (match_block sp word sane b0 x K0) in M.
           assert (x = written g l rest) as -> by congruence. apply app_inv_tail in Pf'. exact Pf'.
      * destruct (block_parts b Kb) as (Pd & Pv & _). apply replace_free with (sp := sp); auto. apply (name_no_star sp word sane (b_db b) (b_view b)); assumption.
Qed.

(** One statement submitted after the other; an error ends it. *)
Fixpoint submit_all (n : nat) (l : list text) (w : world C D) : world C D * list (runner C) * option exn :=
  match l with
  | [] => (w, [], None)
  | s :: l => match submit m n s w with
              | (w, q, None) => match submit_all n l w with (w, q', e) => (w, q ++ q', e) end
              | other => other
              end
  end.
Lemma views_defined : forall n bs g first rest w q, choice g -> Forall ok bs -> quiet sp first -> parts_ok rest ->
  exists g', choice g' /\ (forall b, ok b -> g b = b_name b \/ In b bs -> g' b = b_name b) /\
    define_views m n (map (fun b => (b_text b, b_name b, b_sql b)) bs) (written g first rest) w q =
    match submit_all n (map view_statement bs) w with (w', q', None) => (w', q ++ q', Ok (written g' first rest)) | (w', q', Some e) => (w', q ++ q', Err e) end.
Proof.
  induction bs as [|b bs IH]; intros g first rest w q Cg F Qf P.
  - exists g. split; [exact Cg|]. split; [intros b _ [E|[]]; exact E|]. cbn. rewrite app_nil_r. reflexivity.
  - inversion F as [|x y Kb F']; subst. cbn [map define_views submit_all].
    destruct (block_parts b Kb) as (Pd & Pv & [T _]).
    assert (split_on 46 (b_name b) = [b_db b; b_view b]) as ->.
    { assert (Nd : forall x, part word x -> ~ In 46%N x).
      { intros x Px I. unfold part in Px. rewrite Forall_forall in Px. apply Px in I. apply (proj2 (proj2 sane)) in I. apply (proj2 I). vm_compute. intuition. }
      unfold b_name. change (b_db b ++ t "." ++ b_view b) with (b_db b ++ 46%N :: b_view b). rewrite split_on_one, split_on_none; auto. }
    assert (strip sp (b_sql b) = b_sql b) as -> by (apply strip_trimmed; exact T).
    match goal with |- context [submit m n ?X w] => replace X with (view_statement b) by reflexivity end.
    destruct (submit m n (view_statement b) w) as [[w1 q1] [e|]].
    + exists b_name. split; [intros b' _; right; reflexivity|]. split; reflexivity.
    + rewrite (replaced b g Kb Cg rest first Qf P).
      assert (Cg' : choice (replace_in b g)).
      { intros b' K'. unfold replace_in. destruct (text_eqb (g b') (b_text b)) eqn:E; [|apply Cg, K']. apply text_eqb_spec in E. right.
        destruct (Cg b' K') as [X|X]; rewrite X in E; [symmetry; apply same_text; assumption|]. exfalso. exact (name_not_text b' b K' Kb E). }
      destruct (IH (replace_in b g) first rest w1 (q ++ q1) Cg' F' Qf P) as (g' & Cg'' & N' & E'). exists g'. split; [exact Cg''|]. split.
      * intros b' K' H. apply N'; [exact K'|]. destruct H as [H|[<-|H]]; [left|left|right; exact H].
        -- unfold replace_in. destruct (text_eqb (g b') (b_text b)) eqn:E; [|exact H]. apply text_eqb_spec in E. rewrite H in E. exfalso. exact (name_not_text b' b K' Kb E).
        -- unfold replace_in. destruct (text_eqb (g b) (b_text b)) eqn:E; [reflexivity|]. apply text_eqb_neq in E. destruct (Cg b K') as [X|X]; [contradiction|exact X].
      * rewrite E'. destruct (submit_all n (map view_statement bs) w1) as [[w2 q2] [e|]]; rewrite app_assoc; reflexivity.
Qed.
Lemma submit_all_app : forall n l1 l2 w, submit_all n (l1 ++ l2) w =
  match submit_all n l1 w with (w1, q1, None) => match submit_all n l2 w1 with (w2, q2, e) => (w2, q1 ++ q2, e) end | other => other end.
Proof.
  induction l1 as [|s l1 IH]; intros l2 w; cbn [app submit_all].
  - destruct (submit_all n l2 w) as [[w2 q2] e]. reflexivity.
  - destruct (submit m n s w) as [[w1 q1] [e|]]; [reflexivity|]. rewrite IH. destruct (submit_all n l1 w1) as [[w2 q2] [e|]]; [reflexivity|].
    destruct (submit_all n l2 w2) as [[w3 q3] e]. rewrite app_assoc. reflexivity.
Qed.
(** C127: a statement with raw blocks makes each of them a view, in order, and is then the statement with the names in their places. *)
Theorem raw_blocks : forall n first rest w, quiet sp first -> parts_ok rest ->
  submit_text m word n (written b_text first rest) w = submit_all n (map (fun bl => view_statement (fst bl)) rest ++ [written b_name first rest]) w.
Proof.
  intros n first rest w Qf P. unfold submit_text. rewrite found by (auto; lia).
  destruct (views_defined n (map fst rest) b_text first rest w []) as (g' & _ & N & E); auto.
  - intros b _. left. reflexivity.
  - apply Forall_forall. intros b I. apply in_map_iff in I. destruct I as (bl & <- & I). unfold parts_ok in P. rewrite Forall_forall in P. apply P, I.
  - rewrite map_map in E. rewrite E, submit_all_app, map_map.
    assert (written g' first rest = written b_name first rest) as ->.
    { unfold written. f_equal. f_equal. apply map_ext_in. intros bl I. f_equal. apply N; [unfold parts_ok in P; rewrite Forall_forall in P; apply P, I|]. right. apply in_map, I. }
    destruct (submit_all n (map (fun x => view_statement (fst x)) rest) w) as [[w1 q1] [e|]]; [reflexivity|]. cbn [submit_all app].
    destruct (submit m n (written b_name first rest) w1) as [[w2 q2] [e|]]; [reflexivity|]. rewrite app_nil_r. reflexivity.
Qed.
(** C127: a statement without blocks is submitted as it is. *)
Theorem no_blocks : forall n s w, quiet sp s -> submit_text m word n s w = submit m n s w.
Proof.
  intros n s w Qs. pose proof (raw_blocks n s [] w Qs ltac:(constructor)) as H. rewrite !written_nil in H. rewrite H. cbn [map app submit_all].
  destruct (submit m n s w) as [[w1 q1] [e|]]; [reflexivity|]. rewrite app_nil_r. reflexivity.
Qed.
(** ** What a block's view statement does *)
(** The view of a database the session has no settings for yet. *)
Lemma set_view_new : forall d v q query args c, databases_ok c -> databases_unique c -> read c [t "databases"; d] = None -> m_view m q = (query, args) ->
  exists c', Config_Model.set (m_json m) (m_view m) [t "databases"; d; t "virtual_views"; v] (CStr q) c = Ok c' /\
    read c' [t "databases"; d; t "virtual_views"; v; t "query"] = Some (CStr query) /\ read c' [t "databases"; d; t "virtual_views"; v; t "args"] = Some args /\
    (forall p, apart [t "databases"; d] p -> p <> [t "databases"] -> read c' p = read c p).
Proof.
  intros d v q query args c O U R PV.
  assert (SD : set_database (m_json m) (m_view m) d [t "virtual_views"; v] (CStr q) [(t_name, CStr d)] =
    Ok (Some [(t_name, CStr d); (t "virtual_views", CList [CDict [(t_name, CStr v); (t "query", CStr query); (t "args", args)]])])).
  { unfold set_database. rewrite text_eqb_refl. change (assoc (t "virtual_views") [(t_name, CStr d)]) with (@None cval). unfold bind at 1. cbn [update_named set_view]. rewrite PV. reflexivity. }
  destruct (set_databases (m_json m) (m_view m) d [t "virtual_views"; v] (CStr q) c _ _ O U (or_intror (conj R eq_refl)) SD) as (c' & E & Rd & _ & _ & Fr).
  - intros a b E N. unfold set_database in E. rewrite text_eqb_refl in E. destruct (match assoc (t "virtual_views") a with None => _ | Some _ => _ end); [|discriminate].
    unfold bind at 1 in E. destruct (update_named v _ _ a0); [|discriminate]. cbn [bind] in E. injection E as <-. rewrite assoc_dict_set.
    change (text_eqb t_name (t "virtual_views")) with false. exact N.
  - exists c'. split; [exact E|].
    assert (Rp : forall p, read c' (t "databases" :: d :: p) = Config_Spec.look (CDict [(t_name, CStr d); (t "virtual_views", CList [CDict [(t_name, CStr v); (t "query", CStr query); (t "args", args)]])]) p).
    { intro p. unfold read in *. cbn [Config_Spec.look] in *. destruct (assoc (t "databases") c') as [[| | |z|z]|]; try discriminate Rd; cbn [Config_Spec.look] in *.
      - destruct (assoc d z); [injection Rd as ->; reflexivity|discriminate].
      - destruct (find (has_name d) z); [injection Rd as ->; reflexivity|discriminate]. }
    assert (H : find (has_name v) [CDict [(t_name, CStr v); (t "query", CStr query); (t "args", args)]] = Some (CDict [(t_name, CStr v); (t "query", CStr query); (t "args", args)])).
    { cbn [find]. unfold has_name. change (assoc (t "name") [(t_name, CStr v); (t "query", CStr query); (t "args", args)]) with (Some (CStr v)). destruct (text_eqb v v) eqn:X; [reflexivity|]; rewrite text_eqb_refl in X; discriminate. }
    rewrite !Rp. cbn [Config_Spec.look].
    change (assoc (t "virtual_views") [(t_name, CStr d); (t "virtual_views", CList [CDict [(t_name, CStr v); (t "query", CStr query); (t "args", args)]])])
      with (Some (CList [CDict [(t_name, CStr v); (t "query", CStr query); (t "args", args)]])). cbn [Config_Spec.look]. rewrite H. repeat split; auto.
Qed.
Definition view_key (b : block) : text := t "@config.databases." ++ b_db b ++ t ".virtual_views." ++ b_view b.
Definition view_text (b : block) : text := t "'''" ++ [10%N] ++ b_sql b ++ [10%N] ++ t "'''".
Lemma view_value : forall b, sp 10%N = true -> trimmed sp (b_sql b) -> set_value sp (m_isdigit m) (m_lower m) (view_text b) = Ok (VStr (b_sql b)).
Proof.
  intros b Bl T. set (body := [10%N] ++ b_sql b ++ [10%N]).
  assert (E : view_text b = t "'''" ++ body ++ t "'''") by (unfold view_text, body; rewrite <- !app_assoc; reflexivity). rewrite E.
  unfold set_value. change (firstn 3 (t "'''" ++ body ++ t "'''")) with (t "'''"). change (text_eqb (t "'''") [39; 39; 39]%N) with true.
  assert (match t "'''" ++ body ++ t "'''" with c :: _ => quote c | [] => false end = true) as -> by reflexivity. cbn [orb].
  assert (pyslice (t "'''" ++ body ++ t "'''") (Some (Z.of_nat 3)) (Some (- Z.of_nat 3)%Z) = body) as X by (apply pyslice_mid; [reflexivity|reflexivity|lia]).
  change (Z.of_nat 3) with 3%Z in X. change (-3)%Z with (- (3))%Z in *. rewrite X. do 2 f_equal. unfold body. apply strip_mid; try (repeat constructor; exact Bl); apply T.
Qed.
(** Every other part of the configuration and of the world is as before, and the view has the query and the arguments that are written in [q]. *)
Definition defines_view (d v q : text) (w w' : world C D) : Prop :=
  env w' = env w /\ genv w' = genv w /\ data w' = data w /\ shown w' = shown w /\
  exists nd nd', nth_error (confs w) (m_me m) = Some nd /\ nth_error (confs w') (m_me m) = Some nd' /\ parent nd' = parent nd /\
    read (own nd') [t "databases"; d; t "virtual_views"; v; t "query"] = Some (CStr (fst (m_view m q))) /\
    read (own nd') [t "databases"; d; t "virtual_views"; v; t "args"] = Some (snd (m_view m q)) /\
    (forall u p, u <> v -> read (own nd) [t "databases"; d] <> None -> read (own nd') (t "databases" :: d :: t "virtual_views" :: u :: p) = read (own nd) (t "databases" :: d :: t "virtual_views" :: u :: p)) /\
    (forall p, apart [t "databases"; d] p -> p <> [t "databases"] -> read (own nd') p = read (own nd) p) /\
    forall j, j <> m_me m -> nth_error (confs w') j = nth_error (confs w) j.
(** The session's own settings for the database, if it has any, are in order. *)
Definition database_fine (c : conf) (d : text) : Prop :=
  databases_ok c /\ databases_unique c /\ (read c [t "databases"; d] = None \/ exists x, read c [t "databases"; d] = Some (CDict x) /\ views_ok x).
(** C127: a block's view statement makes the SQL of the block the query of the view. *)
Theorem raw_view : forall n b w nd, ok b -> (forall c, Config_Model.blank c = true -> sp c = true) -> set_statement Q C D m (view_statement b) (view_key b) (view_text b) ->
  nth_error (confs w) (m_me m) = Some nd -> database_fine (own nd) (b_db b) ->
  exists w', submit m (S n) (view_statement b) w = (w', [], None) /\ defines_view (b_db b) (b_view b) (b_sql b) w w'.
Proof.
  intros n b w nd K Bl Ss E (O & U & R). rewrite (set_statement_submitted Q C D m n _ _ _ w Ss). destruct (block_parts b K) as (Pd & Pv & [T _]).
  destruct Ss as (_ & _ & _ & _ & _ & _ & _ & _ & _ & _ & _ & _ & _ & Tv).
  unfold set_start. cbv zeta. rewrite (strip_trimmed _ _ Tv).
  assert (Nd : forall x, part word x -> Forall (fun c => blank c = false) x /\ ~ In 46%N x).
  { intros x Px. unfold part in Px. rewrite Forall_forall in Px. split; [apply Forall_forall; intros c I|intro I].
    - apply Px in I. apply (proj2 (proj2 sane)) in I. destruct (blank c) eqn:B; [apply Bl in B; destruct I; congruence|reflexivity].
    - apply Px in I. apply (proj2 (proj2 sane)) in I. apply (proj2 I). vm_compute. intuition. }
  destruct (Nd _ Pd) as [Bd Dd], (Nd _ Pv) as [Bv Dv].
  set (key := t "databases." ++ b_db b ++ t ".virtual_views." ++ b_view b).
  assert (set_target (view_key b) = (false, TConf key)) as ->.
  { assert (view_key b = t "@config." ++ key) as -> by reflexivity. apply (set_routes_config (m_json m) (m_view m)). unfold key.
    repeat (apply Forall_app; split); auto; repeat constructor. }
  rewrite view_value by (auto). cbn [cval_of].
  assert (S46 : split_on 46 key = [t "databases"; b_db b; t "virtual_views"; b_view b]).
  { unfold key. change (t "databases." ++ b_db b ++ t ".virtual_views." ++ b_view b) with (t "databases" ++ 46%N :: (b_db b ++ 46%N :: (t "virtual_views" ++ 46%N :: b_view b))).
    rewrite split_dot_app by (cbn; intuition discriminate). rewrite split_dot_app by exact Dd. rewrite split_dot_app by (cbn; intuition discriminate). rewrite split_on_none by exact Dv. reflexivity. }
  assert (V : exists c', Config_Model.set (m_json m) (m_view m) [t "databases"; b_db b; t "virtual_views"; b_view b] (CStr (b_sql b)) (own nd) = Ok c' /\
    read c' [t "databases"; b_db b; t "virtual_views"; b_view b; t "query"] = Some (CStr (fst (m_view m (b_sql b)))) /\
    read c' [t "databases"; b_db b; t "virtual_views"; b_view b; t "args"] = Some (snd (m_view m (b_sql b))) /\
    (forall u p, u <> b_view b -> read (own nd) [t "databases"; b_db b] <> None -> read c' (t "databases" :: b_db b :: t "virtual_views" :: u :: p) = read (own nd) (t "databases" :: b_db b :: t "virtual_views" :: u :: p)) /\
    (forall p, apart [t "databases"; b_db b] p -> p <> [t "databases"] -> read c' p = read (own nd) p)).
  { destruct (m_view m (b_sql b)) as [query args] eqn:PV. cbn [fst snd]. destruct R as [R|(x & R & Vx)].
    - destruct (set_view_new _ (b_view b) _ _ _ _ O U R PV) as (c' & E1 & E2 & E3 & E4). exists c'. repeat split; auto. intros u p _ X. contradiction.
    - destruct (set_view_query (m_json m) (m_view m) _ (b_view b) _ _ _ _ _ O U R Vx PV) as (c' & E1 & E2 & E3 & E4 & _ & _ & _ & E5). exists c'. repeat split; auto. }
  destruct V as (c' & E1 & E2 & E3 & E4 & E5).
  unfold set_config, set_in. rewrite E, S46, E1. cbn [bind]. eexists. split; [reflexivity|]. unfold defines_view. repeat split; auto.
  exists nd, (mknode c' (parent nd) None). split; [exact E|]. cbn [confs with_confs].
  assert (Hs : forall j, nth_error (set_nth (confs w) (m_me m) (mknode c' (parent nd) None)) j = if j =? m_me m then Some (mknode c' (parent nd) None) else nth_error (confs w) j).
  { intro j. rewrite nth_set_nth. rewrite Nat.eqb_sym. destruct (j =? m_me m) eqn:J; [|reflexivity]. apply Nat.eqb_eq in J. subst j. rewrite E. reflexivity. }
  rewrite Hs, Nat.eqb_refl. repeat split; auto. intros j Nj. rewrite Hs. assert ((j =? m_me m) = false) as -> by (apply Nat.eqb_neq; exact Nj). reflexivity.
Qed.
End Raw.
Print Assumptions raw_blocks.
Print Assumptions no_blocks.
Print Assumptions raw_view.

(** C128, refuted: a global view of the database is gone for a session in which a view of that database is defined. *)
Definition some_view (n q : text) : cval := CDict [(t "name", CStr n); (t "query", CStr q); (t "args", CList [])].
Definition global_views : conf := [(t "databases", CList [CDict [(t "name", CStr (t "shop")); (t "driver", CStr (t "mysql")); (t "virtual_views", CList [some_view (t "totals") (t "select 1")])]])].
Definition base : conf := [(t "databases", CList [])].
Definition before := Config_Model.run (fun _ => None) (fun q => (q, CList [])) base (Config_Model.start global_views) [OSession 0].
Definition afterwards := Config_Model.run (fun _ => None) (fun q => (q, CList [])) base before [OSet 1 [t "databases"; t "shop"; t "virtual_views"; t "mine"] (CStr (t "select 2"))].
Theorem view_hides_global_refuted :
  (exists c, read_config base before 1 = Ok c /\ read c [t "databases"; t "shop"; t "virtual_views"; t "totals"; t "query"] = Some (CStr (t "select 1"))) /\
  (exists c, read_config base afterwards 1 = Ok c /\ read c [t "databases"; t "shop"; t "virtual_views"; t "mine"; t "query"] = Some (CStr (t "select 2")) /\
     read c [t "databases"; t "shop"; t "virtual_views"; t "totals"] = None /\ read c [t "databases"; t "shop"; t "driver"] = Some (CStr (t "mysql"))).
Proof. split; eexists; (split; [vm_compute; reflexivity|]); vm_compute; auto. Qed.
Print Assumptions view_hides_global_refuted.

(** The hypotheses can be met: letters and underscores as word characters, two blocks, one of each form. *)
Definition word0 (c : N) : bool := ((97 <=? c) && (c <=? 122) || (c =? 95))%N.
Example sane_met : sane_chars Config_Model.blank word0.
Proof.
  split; [|split; [reflexivity|]].
  - intros c I. cbn in I. repeat (destruct I as [<-|I]; [reflexivity|]). destruct I.
  - intros c W. unfold word0 in W. split.
    + destruct (Config_Model.blank c) eqn:X; [|reflexivity]. exfalso. unfold Config_Model.blank in X. apply existsb_exists in X. destruct X as (y & I & E). apply N.eqb_eq in E. subst y.
      cbn in I. repeat (destruct I as [<-|I]; [discriminate|]). destruct I.
    + intro I. cbn in I. repeat (destruct I as [<-|I]; [discriminate|]). destruct I.
Qed.
Lemma lacks : forall (c : N) (q a b : text), ~ In c q -> q <> a ++ c :: b.
Proof. intros c q a b N E. apply N. rewrite E. apply in_or_app. right. left. reflexivity. Qed.
Example sql_met : sql_ok Config_Model.blank (t "select 1").
Proof.
  split; [split|split].
  - intros c r E. assert (c = 115%N) as -> by (apply (f_equal (hd 0%N)) in E; symmetry; exact E). reflexivity.
  - intros c r E. apply (f_equal (@rev N)) in E. rewrite rev_app_distr in E. assert (c = 49%N) as -> by (apply (f_equal (hd 0%N)) in E; symmetry; exact E). reflexivity.
  - intros a w r _. change (t "*" ++ w ++ t "raw(" ++ r) with (42%N :: (w ++ t "raw(" ++ r)). apply lacks. cbn. intuition discriminate.
  - intros a b. change (a ++ t "endraw" ++ b) with (a ++ [101%N] ++ 110%N :: (t "draw" ++ b)). rewrite app_assoc. apply lacks. cbn. intuition discriminate.
Qed.
Example block_met : exists b, block_ok Config_Model.blank word0 b /\ b_text b = t "/*raw(shop.totals) select 1 endraw*/".
Proof.
  eexists. split; [apply (bo_comment (sp := Config_Model.blank) (word := word0)) with (w1 := []) (w2 := t " ") (w3 := t " ") (w4 := []) (d := t "shop") (v := t "totals") (q := t "select 1")|reflexivity];
    try (repeat constructor; fail); [exact sql_met| |].
  - intros w r _ E. discriminate.
  - intros w r _ E. change (r ++ t ")" ++ w ++ t "/*") with (r ++ 41%N :: (w ++ t "/*")) in E. revert E. apply lacks. cbn. intuition discriminate.
Qed.
Example block_met_parens : exists b, block_ok Config_Model.blank word0 b /\ b_text b = t "/* raw(shop.totals) */ ( select 1 ) /* endraw */".
Proof.
  eexists. split; [apply (bo_parens (sp := Config_Model.blank) (word := word0)) with (w1 := t " ") (w2 := t " ") (w3 := t " ") (w4 := t " ") (w5 := t " ") (w6 := t " ") (w7 := t " ") (w8 := t " ") (d := t "shop") (v := t "totals") (q := t "select 1")|reflexivity];
    try (repeat constructor; fail). exact sql_met.
Qed.
Example quiet_met : quiet Config_Model.blank (t "select * from ").
Proof.
  intros a w r B E. assert (I : In 119%N (t "select * from ")). { rewrite E. apply in_or_app. right. change (t "*" ++ w ++ t "raw(" ++ r) with ((42%N :: w) ++ t "raw(" ++ r). apply in_or_app. right. cbn. auto. }
  cbn in I. intuition discriminate.
Qed.
Example fine_met : database_fine [(t "databases", CList [CDict [(t "name", CStr (t "shop")); (t "virtual_views", CList [some_view (t "totals") (t "select 1")])]])] (t "shop").
Proof.
  split; [eexists; split; [reflexivity|]; constructor; [eexists; eexists; split; reflexivity|constructor]|]. split.
  - intros l E. vm_compute in E. injection E as <-. vm_compute. constructor; [intros []|constructor].
  - right. eexists. split; [reflexivity|]. right. eexists. split; [reflexivity|]. constructor; [eexists; eexists; split; reflexivity|constructor].
Qed.

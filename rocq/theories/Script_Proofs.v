From Coq Require Import SpecFloat Permutation Sorting.Sorted.
From Verif Require Import Base PyVal Str_Model Str_Proofs Utils_Model Calc_Model Expr_Syntax Expr_Model Expr_Spec Expr_Proofs Expr_Props Where_Model Where_Spec Where_Proofs Where_Props Having_Model Having_Spec Reduce_Spec Group_Syntax Group_Model Group_Spec Group_Proofs Group_Props
  Inner_Syntax Inner_Model Inner_Spec Select_Model Select_Spec Select_Props Whole_Syntax Cast_Syntax Cast_Where Cast_Spec Cast_Proofs Whole_Model Whole_Spec Whole_Proofs Collapse_Model Collapse_Spec Collapse_Props
  Alias_Model Alias_Spec Alias_Props Union_Model Insert_Model Insert_Spec Insert_Props Full_Syntax Full_Spec Full_Model Full_Proofs Script_Syntax Script_Spec Script_Model.
Open Scope nat_scope.

Section Spec.
Variable tt : text -> bool.
Variable fn : text -> list val -> val.
Variable str_of : val -> text.
Variable leK : val -> val -> bool.
Variable same : list val -> list val -> bool.
Variable reserved : text -> Prop.
Notation rows := (list (list (text * val))).
Notation tables := (text -> rows).
Notation means := (means tt fn str_of leK same).
Notation proper := (proper tt fn str_of leK same reserved).
Notation with_means := (with_means tt fn str_of leK same).
Notation with_proper := (with_proper tt fn str_of leK same reserved).
Notation with_left := (with_left tt fn str_of leK same).
Notation with_left_proper := (with_left_proper tt fn str_of leK same reserved).

(** With empty tables under its names, and different names, a WITH is local. *)
Definition rel (ctes : list (text * query)) (q : query) (n : text) : Prop := reads n q \/ exists name q', In (name, q') ctes /\ reads n q'.
Definition empty_names (ctes : list (text * query)) (tb : tables) : Prop := forall name, In name (map fst ctes) -> tb (mt name) = [].
Lemma left_means : forall ctes q tb tb' out, NoDup (map fst ctes) -> empty_names ctes tb -> (forall n, rel ctes q n -> tb n = tb' n) -> 
  (with_left tb ctes q out -> with_means tb' ctes q out).
Proof.
  induction ctes as [|[name q'] ctes IH]; intros q tb tb' out ND Em Ag M; cbn [Script_Spec.with_left Full_Spec.with_means] in *.
  - apply (means_ext tt fn str_of leK same q tb tb'); [|exact M]. intros n R. apply Ag. left. exact R.
  - destruct M as (l & Ml & M). inversion ND as [|? ? N1 N2]; subst. exists l. split.
    + apply (means_ext tt fn str_of leK same q' tb tb'); [|exact Ml]. intros n R. apply Ag. right. exists name, q'. split; [left; reflexivity|exact R].
    + revert M. apply IH; [exact N2| |].
      * intros m I. unfold change. destruct (text_eqb (mt m) (mt name)) eqn:E; [apply text_eqb_spec, mt_inj in E; subst m; destruct (N1 I)|]. apply Em. right. exact I.
      * intros n R. unfold change, define. destruct (text_eqb n (mt name)) eqn:E; [apply text_eqb_spec in E; subst n; rewrite (Em name) by (left; reflexivity); reflexivity|].
        apply Ag. destruct R as [R|(m & q0 & I & R)]; [left; exact R|right; exists m, q0; split; [right; exact I|exact R]].
Qed.
Lemma means_left : forall ctes q tb tb' out, NoDup (map fst ctes) -> empty_names ctes tb -> (forall n, rel ctes q n -> tb n = tb' n) -> 
  (with_means tb' ctes q out -> with_left tb ctes q out).
Proof.
  induction ctes as [|[name q'] ctes IH]; intros q tb tb' out ND Em Ag M; cbn [Script_Spec.with_left Full_Spec.with_means] in *.
  - apply (means_ext tt fn str_of leK same q tb' tb); [|exact M]. intros n R. symmetry. apply Ag. left. exact R.
  - destruct M as (l & Ml & M). inversion ND as [|? ? N1 N2]; subst. exists l. split.
    + apply (means_ext tt fn str_of leK same q' tb' tb); [|exact Ml]. intros n R. symmetry. apply Ag. right. exists name, q'. split; [left; reflexivity|exact R].
    + revert M. apply IH; [exact N2| |].
      * intros m I. unfold change. destruct (text_eqb (mt m) (mt name)) eqn:E; [apply text_eqb_spec, mt_inj in E; subst m; destruct (N1 I)|]. apply Em. right. exact I.
      * intros n R. unfold change, define. destruct (text_eqb n (mt name)) eqn:E; [apply text_eqb_spec in E; subst n; rewrite (Em name) by (left; reflexivity); reflexivity|].
        apply Ag. destruct R as [R|(m & q0 & I & R)]; [left; exact R|right; exists m, q0; split; [right; exact I|exact R]].
Qed.
Lemma proper_left : forall ctes q tb tb', NoDup (map fst ctes) -> empty_names ctes tb -> (forall n, rel ctes q n -> tb n = tb' n) -> 
  (with_proper tb' ctes q -> with_left_proper tb ctes q).
Proof.
  induction ctes as [|[name q'] ctes IH]; intros q tb tb' ND Em Ag M; cbn [Script_Spec.with_left_proper Full_Spec.with_proper] in *.
  - apply (proper_ext tt fn str_of leK same reserved q tb' tb); [|exact M]. intros n R. symmetry. apply Ag. left. exact R.
  - destruct M as (P & M). inversion ND as [|? ? N1 N2]; subst.
    assert (Ag' : forall n, reads n q' -> tb n = tb' n) by (intros n R; apply Ag; right; exists name, q'; split; [left; reflexivity|exact R]). split.
    + apply (proper_ext tt fn str_of leK same reserved q' tb' tb); [|exact P]. intros n R. symmetry. exact (Ag' n R).
    + intros l Ml. specialize (M l (means_ext tt fn str_of leK same q' tb tb' Ag' l Ml)). revert M. apply IH; [exact N2| |].
      * intros m I. unfold change. destruct (text_eqb (mt m) (mt name)) eqn:E; [apply text_eqb_spec, mt_inj in E; subst m; destruct (N1 I)|]. apply Em. right. exact I.
      * intros n R. unfold change, define. destruct (text_eqb n (mt name)) eqn:E; [apply text_eqb_spec in E; subst n; rewrite (Em name) by (left; reflexivity); reflexivity|].
        apply Ag. destruct R as [R|(m & q0 & I & R)]; [left; exact R|right; exists m, q0; split; [right; exact I|exact R]].
Qed.
End Spec.

Section Script.
Variable frepr : spec_float -> text.
Variable ident : val -> val -> bool.
Variable ext : text -> option (list val -> val).
Variable lib : text -> list val -> val.
Variable tt : text -> bool.
Hypothesis no_neg : ext (t "neg") = None.
Variable str_of : val -> text.
Variable primary : option text.
Variable pick pick1 : list row -> row.
Variable nested : text -> row -> val.
Variable raw : list (text * state) -> val.
Variable state_name : path -> text.
Variable other : expr -> res hcol.
Variable rematch : text -> val -> bool.
Variable leK : val -> val -> bool.
Hypothesis TK : total_preorder leK.
Hypothesis EQ : forall a b, pyeq a b = true -> leK a b = true /\ leK b a = true.
Hypothesis HP : forall rs, rs <> [] -> In (pick rs) rs.
Hypothesis HP1 : forall rs, rs <> [] -> In (pick1 rs) rs.
Hypothesis INJ : forall p q, state_name p = state_name q -> p = q.
Variable filt : text -> val -> val.
Hypothesis HF : forall ty v, is_number_type v ty -> filt ty v = v.
Variable temp : nat -> text.
Variable pk : text.
Hypothesis temp_inj : forall i j, temp i = temp j -> i = j.
Let fn := sql_fn frepr ident ext lib.
Let reserved := fun n => exists p, n = state_name p.
Notation means := (means tt fn str_of leK equal_keys).
Notation proper := (proper tt fn str_of leK equal_keys reserved).
Notation with_means := (with_means tt fn str_of leK equal_keys).
Notation with_proper := (with_proper tt fn str_of leK equal_keys reserved).
Notation with_left := (with_left tt fn str_of leK equal_keys).
Notation with_left_proper := (with_left_proper tt fn str_of leK equal_keys reserved).
Notation no_temp := (no_temp temp).
Notation fresh := (fresh temp).
Notation clash_free := (clash_free temp pk).
Notation compile_query := (compile_query frepr ident ext lib str_of primary pick pick1 nested raw state_name other rematch leK temp).
Notation compile_from := (compile_from frepr ident ext lib str_of primary pick pick1 nested raw state_name other rematch leK temp pk).
Notation run_to := (run_to frepr ident ext lib str_of primary pick pick1 nested raw state_name other rematch leK temp pk).
Notation run_command := (run_command frepr ident ext lib str_of primary pick pick1 nested raw state_name other rematch leK filt temp pk).
Notation run_script := (run_script frepr ident ext lib str_of primary pick pick1 nested raw state_name other rematch leK filt temp pk).
Definition usable (ctes : list (text * query)) : Prop := forall name q', In (name, q') ctes -> no_temp q' /\ clash_free name q' /\ forall j, name <> temp j.

Lemma with_left_compiled : forall ctes q, usable ctes -> forall k cs k',
  compile_with frepr ident ext lib str_of primary pick pick1 nested raw state_name other rematch leK temp pk ctes k = (cs, k') ->
  k <= k' /\ forall s tb, fresh k (fst s) -> agree temp (fst s) tb -> with_left_proper tb ctes q ->
    exists s1 tb1, runs cs s = Ok s1 /\ snd s1 = snd s /\ fresh k' (fst s1) /\ agree temp (fst s1) tb1 /\ proper tb1 q /\
      (forall out, means tb1 q out -> with_left tb ctes q out) /\
      (forall n, (forall name, In name (map fst ctes) -> n <> mt name) -> tb1 n = tb n) /\ (forall n, outside_ temp k k' n -> (forall name, In name (map fst ctes) -> n <> mt name) -> fst s1 n = fst s n).
Proof.
  intros ctes q. induction ctes as [|[name q'] ctes IH]; intros H k cs k' C; cbn [compile_with] in C.
  - injection C as <- <-. split; [lia|]. intros s tb F A P. exists s, tb. split; [reflexivity|]. split; [reflexivity|]. split; [exact F|]. split; [exact A|]. split; [exact P|]. split; [exact (fun out M => M)|]. split; intros; reflexivity.
  - destruct (compile_query q' k) as [[f i o d] k1] eqn:Cq. destruct (compile_with _ _ _ _ _ _ _ _ _ _ _ _ _ _ _ _ ctes k1) as [cs' k2] eqn:Cw. injection C as <- <-.
    destruct (H name q' (or_introl eq_refl)) as (NT & CF & NN).
    destruct (query_compiled frepr ident ext lib tt no_neg str_of primary pick pick1 nested raw state_name other rematch leK TK EQ HP HP1 INJ temp temp_inj q' k _ k1 NT Cq) as (L1 & f' & i' & d' & E & T). injection E as <- <- -> <-.
    destruct (IH (fun m x I => H m x (or_intror I)) k1 cs' k2 Cw) as (L2 & W). split; [lia|].
    intros s tb F A P. cbn [Script_Spec.with_left_proper] in P. destruct P as [Pq Pr].
    assert (Rd : forall n, reads n q' -> tb n = fst s n) by (intros n R; symmetry; apply A; exact (NT n R)).
    destruct (T s F (proper_ext tt fn str_of leK equal_keys reserved q' _ _ Rd Pq)) as (out & s1 & R & Ef & M & S & U).
    assert (M' : means tb q' out) by (apply (means_ext tt fn str_of leK equal_keys q' (fst s)); [intros n Rn; symmetry; exact (Rd n Rn)|exact M]).
    assert (FD : map (fix_dependency pk (mt name)) d = d).
    { rewrite <- (map_id d) at 2. apply map_ext_in. intros c I. apply (fix_known temp pk name q'); [exact CF|].
      pose proof (deps_known frepr ident ext lib str_of primary pick pick1 nested raw state_name other rematch leK temp q' k _ _ _ _ _ Cq) as K. rewrite Forall_forall in K. exact (K c I). }
    rewrite FD. assert (Nm : forall j, mt name <> mt (temp j)) by (intros j Z; apply mt_inj in Z; exact (NN j Z)).
    destruct (W (append (Some (mt name)) out s1) (change tb (mt name) (fun m => m ++ out))) as (s2 & tb2 & R2 & S2 & F2 & A2 & P2 & M2 & U2 & U3).
    + intros j Hj. unfold append. cbn [fst]. assert (text_eqb (mt (temp j)) (mt name) = false) as -> by (apply text_eqb_neq; intros Z; symmetry in Z; exact (Nm j Z)).
      rewrite U; [apply F; lia|]. intros j' Hj' Z. apply mt_inj, temp_inj in Z. lia.
    + intros n Hn. unfold append, change. cbn [fst]. rewrite U by (intros j _; apply Hn). rewrite (A n Hn). reflexivity.
    + exact (Pr out M').
    + exists s2, tb2. cbn [runs]. rewrite run_eq, R. cbn [bind]. rewrite Ef. cbn [bind]. split; [exact R2|]. split; [rewrite S2; exact S|]. split; [exact F2|]. split; [exact A2|]. split; [exact P2|]. split.
      * intros x Mx. cbn [Script_Spec.with_left]. exists out. split; [exact M'|]. exact (M2 x Mx).
      * split.
        -- intros n Hn. rewrite U2 by (intros m I; apply Hn; right; exact I). unfold change. rewrite (proj2 (text_eqb_neq _ _)); [reflexivity|]. apply Hn. left. reflexivity.
        -- intros n On Hn. rewrite U3; [|intros j Hj; apply On; lia|intros m I; apply Hn; right; exact I]. unfold append. cbn [fst].
           rewrite (proj2 (text_eqb_neq _ _)) by (apply Hn; left; reflexivity). apply U. intros j Hj. apply On. lia.
Qed.

Definition plain_table (n : text) (ctes : list (text * query)) : Prop := (forall j, n <> mt (temp j)) /\ forall name, In name (map fst ctes) -> n <> mt name.
Lemma run_to_ok : forall o ctes q k tb, usable ctes -> no_temp q -> (forall n, o = Some n -> forall j, n <> mt (temp j)) -> fresh k tb -> with_left_proper tb ctes q ->
  exists tb1 k' out, run_to o ctes q k tb = Ok (tb1, match o with None => out | Some _ => [] end, k') /\ with_left tb ctes q out /\ k <= k' /\ fresh k' tb1 /\
    forall n, plain_table n ctes -> tb1 n = tb n ++ (if match o with Some m => text_eqb n m | None => false end then out else []).
Proof.
  intros o ctes q k tb U NT No F P. unfold Script_Model.run_to, Script_Model.compile_from.
  destruct (compile_with _ _ _ _ _ _ _ _ _ _ _ _ _ _ _ _ ctes k) as [cs k1] eqn:Cw. destruct (compile_query q k1) as [[f i o' d] k2] eqn:Cq.
  destruct (with_left_compiled ctes q U k cs k1 Cw) as (L1 & W). destruct (W (tb, []) tb F (fun n _ => eq_refl) P) as (s1 & tb1 & R1 & S1 & F1 & A1 & P1 & M1 & U1 & U1').
  destruct (query_compiled frepr ident ext lib tt no_neg str_of primary pick pick1 nested raw state_name other rematch leK TK EQ HP HP1 INJ temp temp_inj q k1 _ k2 NT Cq) as (L2 & f' & i' & d' & E & T). injection E as <- <- -> <-.
  assert (Rd : forall n, reads n q -> tb1 n = fst s1 n) by (intros n R; symmetry; apply A1; exact (NT n R)).
  destruct (T s1 F1 (proper_ext tt fn str_of leK equal_keys reserved q _ _ Rd P1)) as (out & s2 & R & Ef & M & S & U2).
  cbn [to_table]. rewrite run_eq, runs_app, R1. cbn [bind]. rewrite R. cbn [bind]. rewrite Ef. cbn [bind].
  exists (cleared temp k k2 (fst (append o out s2))), k2, out. split; [|split; [|split; [lia|split]]].
  - f_equal. f_equal. f_equal. destruct o as [m|]; cbn [append snd]; rewrite S, S1; reflexivity.
  - apply M1. apply (means_ext tt fn str_of leK equal_keys q (fst s1)); [|exact M]. intros n Rn. symmetry. exact (Rd n Rn).
  - intros j Hj. unfold cleared. destruct (existsb _ _); [reflexivity|].
    assert (fst (append o out s2) (mt (temp j)) = fst s2 (mt (temp j))) as ->.
    { destruct o as [m|]; [|reflexivity]. cbn [append fst]. rewrite (proj2 (text_eqb_neq _ _)); [reflexivity|]. intros Z. symmetry in Z. exact (No m eq_refl j Z). }
    rewrite U2; [apply F1; lia|]. intros i' Hi Z. apply mt_inj, temp_inj in Z. lia.
  - intros n [Hn Hw]. unfold cleared.
    assert (existsb (fun j => text_eqb n (mt (temp j))) (seq k (k2 - k)) = false) as ->.
    { destruct (existsb _ _) eqn:X; [|reflexivity]. apply existsb_exists in X as (j & _ & X). apply text_eqb_spec in X. destruct (Hn j X). }
    assert (B : fst s2 n = tb n).
    { rewrite U2 by (intros j _; apply Hn). rewrite U1'; [reflexivity|intros j _; apply Hn|exact Hw]. }
    destruct o as [m|]; cbn [append fst]; [destruct (text_eqb n m)|]; rewrite B; rewrite ?app_nil_r; reflexivity.
Qed.

(** ** DELETE *)
Lemma deletable_deleted : forall w l, deletable tt fn w -> deleted frepr ident ext lib w l = Ok (left_by tt fn w l).
Proof.
  intros w l [PW D]. pose proof (where_whole frepr ident ext lib tt no_neg (mkconfig [] [] []) w PW) as W. unfold deleted.
  assert (Hr : fst (where_parts frepr ident ext w) = None).
  { destruct w as [e|]; [|reflexivity]. specialize (D e eq_refl). destruct (PW e eq_refl) as [_ TL].
    unfold where_parts. rewrite (where_uncast _ plain_name (fun n => n) e e) by (first [left; reflexivity|apply clean_uncast; eapply top_level_weaken; [|exact TL]; intros y (Ya & Yb & Yc); exact Yc]).
    assert (A : top_level (pushable plain_name) e).
    { eapply top_level_weaken; [|exact D]. assert (PN : forall n, ~ In 124%N n -> plain_name n = true).
      { intros n Hn. unfold plain_name, has_bar. apply negb_true_iff. destruct (existsb (N.eqb 124) n) eqn:X; [|reflexivity]. exfalso. apply existsb_exists in X as (c & I & C). apply N.eqb_eq in C. subst c. exact (Hn I). }
      intros y [(k & n & b & -> & K & Hn & Hb)|(n & l0 & -> & Hn)]; [left|right].
      - exists k, (ECol n), b, n. split; [reflexivity|]. split; [exact K|]. split; [exact (PN n Hn)|]. left. split; [reflexivity|]. destruct (has_column b) eqn:HC; [|reflexivity]. apply (proj1 (has_column_mentions b)) in HC. destruct HC as [m HC]. destruct (Hb m HC).
      - exists n, l0. split; [reflexivity|exact (PN n Hn)]. }
    apply (delete_accepted (compile frepr ident ext) plain_name (fun n => n)) in A. destruct A as [q A]. unfold compile_delete in A.
    destruct (where_cond _ _ _ e []) as [[m r] q']. destruct r; [discriminate A|reflexivity]. }
  destruct (where_parts frepr ident ext w) as [r q]. cbn [fst snd] in *. subst r. destruct W as (pred & Rp & W & _). injection Rp as <-.
  f_equal. unfold left_by. apply filter_ext. intros o. specialize (W (fun n => field n o)). rewrite andb_true_r in W. rewrite W. reflexivity.
Qed.

(** ** Scripts *)
Definition good (c : command) : Prop :=
  usable (with_part c) /\ NoDup (with_names c) /\ (forall n, writes n c \/ command_reads n c -> forall j, n <> mt (temp j)) /\
  (forall name, In name (with_names c) -> ~ writes (mt name) c).
(** The names of WITH in [used] do not occur in [c]. *)
Definition avoids (used : list text) (c : command) : Prop := forall name, In name used -> ~ In name (with_names c) /\ ~ writes (mt name) c /\ ~ command_reads (mt name) c.
Fixpoint separate (used : list text) (cs : list command) : Prop :=
  match cs with [] => True | c :: r => good c /\ avoids used c /\ separate (with_names c ++ used) r end.
Definition before (cs : list command) : Prop := forall i j ci cj, i < j -> nth_error cs i = Some ci -> nth_error cs j = Some cj -> forall name, In name (with_names cj) -> ~ writes (mt name) ci.
Definition same_tables (used : list text) (tb tb' : text -> list output) : Prop := forall n, (forall j, n <> mt (temp j)) -> (forall name, In name used -> n <> mt name) -> tb n = tb' n.

Lemma script_runs : forall cs used k tb tb', separate used cs -> before cs -> fresh k tb -> same_tables used tb tb' ->
  (forall c name, In c cs -> In name (with_names c) -> tb' (mt name) = []) ->
  script_proper tt fn str_of leK equal_keys reserved tb' cs ->
  exists shown final final', run_script cs k tb = Ok (shown, final) /\ script_means tt fn str_of leK equal_keys tb' cs shown final' /\
    same_tables (concat (map with_names cs) ++ used) final final'.
Proof.
  induction cs as [|c cs IH]; intros used k tb tb' Sep Bef F Sm Em P.
  - exists [], tb, tb'. split; [reflexivity|]. split; [split; reflexivity|]. exact Sm.
  - destruct Sep as (G & Av & Sep). destruct G as (Us & ND & NT & NW).
    assert (Bef' : before cs) by (intros i j ci cj L Hi Hj; exact (Bef (S i) (S j) ci cj ltac:(lia) Hi Hj)).
    assert (Now : forall name c', In c' cs -> In name (with_names c') -> ~ writes (mt name) c).
    { intros name c' I Iw. apply In_nth_error in I as (j & Hj). exact (Bef 0 (S j) c c' ltac:(lia) eq_refl Hj name Iw). }
    assert (Step : forall tb1 tb1' k1 sh, run_command c k tb = Ok (sh, tb1, k1) -> fresh k1 tb1 ->
        (forall n, (forall j, n <> mt (temp j)) -> (forall name, In name (with_names c ++ used) -> n <> mt name) -> tb1 n = tb1' n) ->
        (forall n, ~ writes n c -> tb1' n = tb' n) -> script_proper tt fn str_of leK equal_keys reserved tb1' cs ->
        exists shown final final', run_script (c :: cs) k tb = Ok (sh ++ shown, final) /\ script_means tt fn str_of leK equal_keys tb1' cs shown final' /\
          same_tables (concat (map with_names (c :: cs)) ++ used) final final').
    { intros tb1 tb1' k1 sh R1 F1 S1 W1 P1. destruct (IH (with_names c ++ used) k1 tb1 tb1' Sep Bef' F1 S1) as (shown & final & final' & R & M & S2); [|exact P1|].
      - intros c' name I Iw. rewrite W1 by exact (Now name c' I Iw). exact (Em c' name (or_intror I) Iw).
      - exists shown, final, final'. cbn [Script_Model.run_script]. rewrite R1. cbn [bind fst snd]. rewrite R. cbn [bind fst snd]. split; [reflexivity|]. split; [exact M|].
        intros n Hn Hu. apply S2; [exact Hn|]. intros name I. apply Hu. cbn [map concat]. rewrite !in_app_iff in I |- *. tauto. }
    assert (Em' : empty_names (with_part c) tb).
    { intros name I. rewrite (Sm (mt name)); [apply (Em c name (or_introl eq_refl) I)| |].
      - intros j Z. apply mt_inj in Z. subst name. unfold with_names in *. apply in_map_iff in I as ([m q0] & Z & I). cbn [fst] in Z. subst m. destruct (Us (temp j) q0 I) as (_ & _ & H). exact (H j eq_refl).
      - intros m Im Z. apply mt_inj in Z. subst m. destruct (Av name Im) as (H & _ & _). exact (H I). }
    destruct c as [ctes q|n ctes q|n names tuples|n w]; cbn [Script_Spec.script_proper with_part with_names] in *.
    + destruct P as [P Pr]. assert (Ag : forall n, rel ctes q n -> tb n = tb' n).
      { intros n R. apply Sm; [exact (NT n (or_intror R))|]. intros m Im Z. subst n. destruct (Av m Im) as (_ & _ & H). exact (H R). }
      destruct (run_to_ok None ctes q k tb Us) as (tb1 & k1 & out & R1 & M1 & L & F1 & U1); [intros n R; exact (NT n (or_intror (or_introl R)))|discriminate|exact F|exact (proper_left _ _ _ _ _ _ ctes q tb tb' ND Em' Ag P)|].
      destruct (Step tb1 tb' k1 [out]) as (shown & final & final' & R & M & S2).
      * cbn [Script_Model.run_command]. rewrite R1. reflexivity.
      * exact F1.
      * intros n Hn Hu. rewrite U1 by (split; [exact Hn|intros name I; apply Hu; apply in_or_app; left; exact I]). rewrite app_nil_r. apply Sm; [exact Hn|]. intros m I. apply Hu. apply in_or_app. right. exact I.
      * intros n _. reflexivity.
      * exact Pr.
      * exists ([out] ++ shown), final, final'. split; [exact R|]. split; [|exact S2]. cbn [Script_Spec.script_means]. exists out, shown.
        split; [exact (left_means tt fn str_of leK equal_keys ctes q tb tb' out ND Em' Ag M1)|]. split; [reflexivity|exact M].
    + destruct P as [P Pr]. assert (Ag : forall m, rel ctes q m -> tb m = tb' m).
      { intros m R. apply Sm; [exact (NT m (or_intror R))|]. intros x Im Z. subst m. destruct (Av x Im) as (_ & _ & H). exact (H R). }
      destruct (run_to_ok (Some n) ctes q k tb Us) as (tb1 & k1 & out & R1 & M1 & L & F1 & U1); [intros m R; exact (NT m (or_intror (or_introl R)))| |exact F|exact (proper_left _ _ _ _ _ _ ctes q tb tb' ND Em' Ag P)|].
      { intros m Hm. injection Hm as <-. apply (NT n). left. reflexivity. }
      pose proof (left_means tt fn str_of leK equal_keys ctes q tb tb' out ND Em' Ag M1) as M1'.
      destruct (Step tb1 (change tb' n (fun l => l ++ out)) k1 []) as (shown & final & final' & R & M & S2).
      * cbn [Script_Model.run_command]. rewrite R1. reflexivity.
      * exact F1.
      * intros m Hn Hu. rewrite U1 by (split; [exact Hn|intros name I; apply Hu; apply in_or_app; left; exact I]). unfold change.
        rewrite (Sm m) by (first [exact Hn|intros x I; apply Hu; apply in_or_app; right; exact I]). destruct (text_eqb m n); [reflexivity|apply app_nil_r].
      * intros m Hm. unfold change. rewrite (proj2 (text_eqb_neq _ _)); [reflexivity|]. exact Hm.
      * exact (Pr out M1').
      * exists shown, final, final'. split; [exact R|]. split; [|exact S2]. cbn [Script_Spec.script_means]. exists out. split; [exact M1'|exact M].
    + destruct P as [(I1 & I2 & I3 & I4 & I5 & I6) Pr].
      pose proof (insert_values_exact filt names tuples I1 I2 I3 I4 I5 HF I6) as E.
      destruct (Step (update n (fun l => l ++ map (stored_row names) tuples) tb) (change tb' n (fun l => l ++ map (stored_row names) tuples)) k []) as (shown & final & final' & R & M & S2).
      * cbn [Script_Model.run_command]. rewrite E. reflexivity.
      * intros j Hj. unfold update. rewrite (proj2 (text_eqb_neq _ _)); [exact (F j Hj)|]. intros Z. symmetry in Z. revert Z. apply (NT n). left. reflexivity.
      * intros m Hn Hu. unfold update, change. destruct (text_eqb m n); rewrite (Sm m) by (first [exact Hn|intros x I; apply Hu; exact I]); reflexivity.
      * intros m Hm. unfold change. rewrite (proj2 (text_eqb_neq _ _)); [reflexivity|]. exact Hm.
      * exact Pr.
      * exists shown, final, final'. split; [exact R|]. split; [exact M|exact S2].
    + destruct P as [D Pr].
      assert (En : tb n = tb' n).
      { apply Sm; [apply (NT n); left; reflexivity|]. intros m I Z. destruct (Av m I) as (_ & H & _). apply H. cbn [writes]. symmetry. exact Z. }
      destruct (Step (update n (fun _ => left_by tt fn w (tb n)) tb) (change tb' n (left_by tt fn w)) k []) as (shown & final & final' & R & M & S2).
      * cbn [Script_Model.run_command]. rewrite (deletable_deleted w (tb n) D). reflexivity.
      * intros j Hj. unfold update. rewrite (proj2 (text_eqb_neq _ _)); [exact (F j Hj)|]. intros Z. symmetry in Z. revert Z. apply (NT n). left. reflexivity.
      * intros m Hn Hu. unfold update, change. destruct (text_eqb m n) eqn:X; [apply text_eqb_spec in X; subst m; rewrite En; reflexivity|]. apply Sm; [exact Hn|exact Hu].
      * intros m Hm. unfold change. rewrite (proj2 (text_eqb_neq _ _)); [reflexivity|]. exact Hm.
      * exact Pr.
      * exists shown, final, final'. split; [exact R|]. split; [exact M|exact S2].
Qed.
End Script.

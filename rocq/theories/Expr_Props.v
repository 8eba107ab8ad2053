(** C34: compiled boolean and conditional expressions against SQL. *)
From Coq Require Import SpecFloat.
From Verif Require Import Base PyVal Utils_Model Calc_Model Calc_Proofs Calc_Props Dec_Proofs Expr_Syntax Expr_Model Expr_Spec Expr_Proofs.
Open Scope Z_scope.

(** All theorems below hold for every text of floats, object identity, table of further MySQL functions
    and library, and for every reading of texts as conditions; [sql_fn] is the table of SQL functions. *)

(** Expressions of the class [exact] have their SQL value, on every row, NULLs included. *)
Theorem compiled_value : forall frepr ident ext lib tt, ext (t "neg") = None ->
  forall e, exact e -> forall row,
  ev frepr ident ext lib row (compile frepr ident ext e) = sem tt (sql_fn frepr ident ext lib) row e.
Proof. intros fr id ext lib tt N e H row. apply (compiled fr id ext lib tt N e row). exact H. Qed.
Print Assumptions compiled_value.

(** Conditions of the class [cond] (comparisons, IN, IS NULL, BETWEEN, NOT of an exact condition, joined by
    AND, OR and IF): the compiled filter lets a row pass iff the SQL condition is TRUE, NULLs included. *)
Theorem compiled_condition : forall frepr ident ext lib tt, ext (t "neg") = None ->
  forall e, cond e -> forall row,
  truthy (ev frepr ident ext lib row (compile frepr ident ext e)) = true <->
  truth tt (sem tt (sql_fn frepr ident ext lib) row e) = Some true.
Proof. intros fr id ext lib tt N e H row. apply (compiled fr id ext lib tt N e row). exact H. Qed.
Print Assumptions compiled_condition.

(** With NOT at any depth: the value is the SQL value on every row on which no elementary condition is NULL. *)
Theorem compiled_known : forall frepr ident ext lib tt, ext (t "neg") = None ->
  forall row e, known (sem tt (sql_fn frepr ident ext lib) row) e ->
  ev frepr ident ext lib row (compile frepr ident ext e) = sem tt (sql_fn frepr ident ext lib) row e.
Proof.
  intros fr id ext lib tt N row e H.
  assert (G : ev fr id ext lib row (compile fr id ext e) = sem tt (sql_fn fr id ext lib) row e /\
              (sem tt (sql_fn fr id ext lib) row e = VInt 0 \/ sem tt (sql_fn fr id ext lib) row e = VInt 1)).
  { induction H as [a X B V|a K [IH1 IH2]|a K [IH1 IH2]|a b Ka [IHa Va] Kb [IHb Vb]|a b Ka [IHa Va] Kb [IHb Vb]|a lo hi Xa Xl Xh Va Vl Vh Vg Vle].
    - pose proof (proj1 (compiled fr id ext lib tt N a row) X) as E. split; [exact E|].
      pose proof (boolean_bool3 fr id ext lib tt a row B) as [Q|Q]; rewrite E in Q; tauto.
    - split; assumption.
    - cbn [sem]. split.
      + rewrite <- IH1. apply ev_not. rewrite IH1. destruct IH2 as [-> | ->]; [right; left|right; right]; reflexivity.
      + destruct IH2 as [-> | ->]; cbn; auto.
    - cbn [compile ev sem]. rewrite IHa, IHb. destruct Va as [-> | ->], Vb as [-> | ->]; cbn; auto.
    - cbn [compile ev sem]. rewrite IHa, IHb. destruct Va as [-> | ->], Vb as [-> | ->]; cbn; auto.
    - cbn [compile ev sem] in *. rewrite !(proj1 (compiled fr id ext lib tt N _ row)) by assumption.
      rewrite !call_mysql_fn with (lib := lib) by reflexivity.
      pose proof (bool3_cmp fr id ext lib (t "gte") (sem tt (sql_fn fr id ext lib) row a) (sem tt (sql_fn fr id ext lib) row lo) eq_refl) as G.
      pose proof (bool3_cmp fr id ext lib (t "lte") (sem tt (sql_fn fr id ext lib) row a) (sem tt (sql_fn fr id ext lib) row hi) eq_refl) as L.
      destruct G as [G|[G|G]]; [congruence| |]; rewrite G; destruct L as [L|[L|L]]; try congruence; rewrite L; cbn; auto. }
  apply G.
Qed.
Print Assumptions compiled_known.

(** ** CASE e WHEN constant ...: compiled to a lookup *)
Lemma vset_fresh : forall A (d : list (val * A)) k v, Forall (fun kv => pyeq (fst kv) k = false) d -> vset d k v = d ++ [(k, v)].
Proof.
  intros A d k v H. induction H as [|[k' v'] d E H IH]; [reflexivity|]. cbn [vset fst app] in *. rewrite E, IH. reflexivity.
Qed.
Lemma pyeq_text : forall a b, pyeq (VStr a) (VStr b) = text_eqb a b.
Proof.
  intros a b. unfold pyeq, pycmp. cbn [num_of].
  destruct (text_eqb a b) eqn:E.
  - apply text_eqb_spec in E. subst b. assert (tcmp a a = Eq) as ->; [|reflexivity].
    induction a as [|x a IH]; [reflexivity|]. cbn [tcmp]. rewrite N.compare_refl. exact IH.
  - destruct (tcmp a b) eqn:C; try reflexivity. exfalso.
    assert (a = b); [|subst; rewrite text_eqb_refl in E; discriminate]. clear E.
    revert b C. induction a as [|x a IH]; intros [|y b] C; try discriminate; [reflexivity|]. cbn [tcmp] in C.
    destruct (N.compare x y) eqn:D; try discriminate. apply N.compare_eq in D. subst y. f_equal. apply IH. exact C.
Qed.

Section SimpleCase.
Variable frepr : spec_float -> text.
Variable ident : val -> val -> bool.
Variable ext : text -> option (list val -> val).
Variable lib : text -> list val -> val.
Variable tt : text -> bool.
Hypothesis no_neg : ext (t "neg") = None.
Notation ev := (ev frepr ident ext lib).
Notation compile := (compile frepr ident ext).
Notation fn := (sql_fn frepr ident ext lib).
Notation sem := (sem tt fn).

Definition when_const (kx : val * expr) : expr * expr := (EConst (fst kx), snd kx).

Lemma simple_case_lookup : forall row e (l : list (val * expr)) els x, sem row e = x ->
  exact e -> Forall (fun kx => exact (snd kx)) l -> opt_all exact els ->
  (forall v, In v (map fst l) -> key_value (case_key frepr v) = v /\
     pyeq (case_key frepr v) (VStr (t "#case")) = false /\ pyeq (VStr (t "#case")) (case_key frepr v) = false /\
     pyeq (case_key frepr v) (VStr (t "#end")) = false) ->
  ForallOrdPairs (fun v w => pyeq (case_key frepr v) (case_key frepr w) = false) (map fst l) ->
  (forall v, In v (map fst l) -> (pyeq v x = true <-> truth tt (fn (t "eq") [x; v]) = Some true)) ->
  ForallOrdPairs (fun v w => ~ (pyeq v x = true /\ pyeq w x = true)) (map fst l) ->
  ev row (compile (ECase (Some e) (map when_const l) els)) = sem row (ECase (Some e) (map when_const l) els).
Proof.
  intros row e l els x Ex Xe Xl Xels Hk Hd Hm Hu.
  pose proof (proj1 (compiled frepr ident ext lib tt no_neg e row) Xe) as Ee.
  cbn [Expr_Model.compile Expr_Spec.sem]. cbv zeta. rewrite Ex in *.
  assert (forallb (fun wt => is_const (fst wt)) (map when_const l) = true) as ->.
  { apply forallb_forall. intros wt I. apply in_map_iff in I. destruct I as (kx & <- & _). reflexivity. }
  set (entry := fun kx : val * expr => (case_key frepr (fst kx), compile (snd kx))).
  assert (F : forall m d, ForallOrdPairs (fun v w => pyeq (case_key frepr v) (case_key frepr w) = false) (map fst m) ->
     (forall kx, In kx m -> Forall (fun kv => pyeq (fst kv) (case_key frepr (fst kx)) = false) d) ->
     fold_left (fun d wt => vset d (case_key frepr (const_value (fst wt))) (compile (snd wt))) (map when_const m) d = d ++ map entry m).
  { induction m as [|kx m IH]; intros d P Q; cbn [map fold_left]; [symmetry; apply app_nil_r|].
    cbn [when_const fst snd const_value]. rewrite vset_fresh by (apply Q; left; reflexivity).
    inversion P; subst. rewrite IH; auto.
    - rewrite <- app_assoc. reflexivity.
    - intros ky I. apply Forall_app. split; [apply Q; right; exact I|]. constructor; [|constructor].
      cbn [fst]. rewrite Forall_forall in H1. apply H1. apply in_map. exact I. }
  rewrite F; [|exact Hd|].
  2: { intros kx I. constructor; [|constructor]. apply Hk. apply in_map. exact I. }
  clear F. rewrite vset_fresh.
  2: { apply Forall_app. split; [constructor; [reflexivity|constructor]|]. apply Forall_forall.
       intros kv I. apply in_map_iff in I. destruct I as (kx & <- & I). cbn [fst entry].
       apply Hk. apply in_map. exact I. }
  cbn [Expr_Model.ev]. rewrite !map_app. cbn [map fst snd]. rewrite Ee.
  set (d := map (fun kv : val * valuer => (fst kv, ev row (snd kv))) (map entry l)).
  set (dflt := ev row match els with Some b => compile b | None => QNone end).
  assert (Edflt : dflt = match els with Some b => sem row b | None => VNone end).
  { unfold dflt. destruct els as [b|]; [|reflexivity]. apply (compiled frepr ident ext lib tt no_neg b row). exact Xels. }
  rewrite <- Edflt. unfold case_lookup.
  assert (Vc : vget (([(VStr (t "#case"), x)] ++ d) ++ [(VStr (t "#end"), dflt)]) (VStr (t "#case")) = Some x) by reflexivity.
  rewrite Vc.
  assert (Ve : vget (([(VStr (t "#case"), x)] ++ d) ++ [(VStr (t "#end"), dflt)]) (VStr (t "#end")) = Some dflt).
  { cbn [app vget]. change (pyeq (VStr (t "#case")) (VStr (t "#end"))) with false. cbn iota.
    assert (G : forall m, Forall (fun kv : val * val => pyeq (fst kv) (VStr (t "#end")) = false) m ->
       vget (m ++ [(VStr (t "#end"), dflt)]) (VStr (t "#end")) = Some dflt).
    { intros m H. induction H as [|[k v] m K H IH]; [reflexivity|]. cbn [app vget fst] in *. rewrite K. exact IH. }
    apply G. unfold d. rewrite map_map. apply Forall_forall. intros kv I. apply in_map_iff in I. destruct I as (kx & <- & I).
    cbn [fst entry]. apply Hk. apply in_map. exact I. }
  rewrite Ve, rev_app_distr. cbn [rev app find fst]. change (is_control (VStr (t "#end"))) with true. cbn [negb andb]. cbn iota.
  assert (Find : forall m, Forall (fun kx => exact (snd kx)) m ->
    (forall v, In v (map fst m) -> key_value (case_key frepr v) = v /\
     pyeq (case_key frepr v) (VStr (t "#case")) = false /\ pyeq (VStr (t "#case")) (case_key frepr v) = false /\
     pyeq (case_key frepr v) (VStr (t "#end")) = false) ->
    (forall v, In v (map fst m) -> (pyeq v x = true <-> truth tt (fn (t "eq") [x; v]) = Some true)) ->
    ForallOrdPairs (fun v w => ~ (pyeq v x = true /\ pyeq w x = true)) (map fst m) ->
    match find (fun kv : val * val => negb (is_control (fst kv)) && pyeq (key_value (fst kv)) x)
       (rev (map (fun kv : val * valuer => (fst kv, ev row (snd kv))) (map entry m)) ++ [(VStr (t "#case"), x)]) with
    | Some kv => snd kv | None => dflt end =
    first_true (map (fun wt => (truth tt (fn (t "eq") [x; sem row (fst wt)]), sem row (snd wt))) (map when_const m)) dflt).
  { clear - no_neg. induction m as [|[v y] m IH]; intros Xm Km Mm Um; [reflexivity|].
    cbn [map rev when_const entry fst snd first_true Expr_Spec.sem] in *.
    inversion Um as [|? ? U1 U2]; subst. inversion Xm as [|? ? X1 X2]; subst.
    specialize (IH X2 (fun w I => Km w (or_intror I)) (fun w I => Mm w (or_intror I)) U2).
    destruct (Km v (or_introl eq_refl)) as (K1 & K2 & _ & K3).
    assert (C : negb (is_control (case_key frepr v)) = true) by (unfold is_control; rewrite K2, K3; reflexivity).
    rewrite <- app_assoc.
    assert (find_app : forall (p : val * val -> bool) a b, find p (a ++ b) = match find p a with Some z => Some z | None => find p b end).
    { intros p a b. induction a as [|z a IHa]; [reflexivity|]. cbn [app find]. destruct (p z); [reflexivity|exact IHa]. }
    rewrite find_app in *. cbn [app]. cbn [find fst]. rewrite C, K1. cbn [andb].
    destruct (pyeq v x) eqn:P.
    - rewrite (proj1 (Mm v (or_introl eq_refl)) P).
      match goal with |- context [find ?p ?a] => assert (find p a = None) as -> end.
      { destruct (find _ _) as [[k w]|] eqn:Fd; [|reflexivity]. exfalso. apply find_some in Fd. destruct Fd as [I Q].
        apply in_rev in I. rewrite map_map in I. apply in_map_iff in I. destruct I as ([v' y'] & E & I). injection E as <- <-.
        cbn [fst entry] in Q. destruct (Km v' (or_intror (in_map fst _ _ I))) as (Kv & _). rewrite Kv in Q.
        apply andb_true_iff in Q. destruct Q as [_ Q]. rewrite Forall_forall in U1. apply (U1 v' (in_map fst _ _ I)). auto. }
      cbn [snd]. apply (compiled frepr ident ext lib tt no_neg y row). exact X1.
    - assert (NT : truth tt (fn (t "eq") [x; v]) <> Some true) by (intros T; apply (Mm v (or_introl eq_refl)) in T; congruence).
      etransitivity; [|etransitivity; [exact IH|]].
      + reflexivity.
      + destruct (truth tt (fn (t "eq") [x; v])) as [[]|]; try reflexivity. congruence. }
  apply Find; assumption.
Qed.
End SimpleCase.

Lemma fn_eq_true : forall fr id ext lib tt a b,
  truth tt (sql_fn fr id ext lib (t "eq") [a; b]) = Some true <-> sql2 (mysql_eq fr) a b = VInt 1.
Proof.
  intros. change (sql2 (mysql_eq fr) a b) with (sql_fn fr id ext lib (t "eq") [a; b]).
  destruct (bool3_cmp fr id ext lib (t "eq") a b eq_refl) as [E|[E|E]]; rewrite E; cbn; split; congruence.
Qed.
Lemma pyeq_int : forall a b, pyeq (VInt a) (VInt b) = true <-> a = b.
Proof.
  intros a b. unfold pyeq, pycmp. cbn. rewrite !Z.mul_1_r. destruct (a ?= b) eqn:E.
  - apply Z.compare_eq in E. tauto.
  - split; [discriminate|]. intros ->. rewrite Z.compare_refl in E. discriminate.
  - split; [discriminate|]. intros ->. rewrite Z.compare_refl in E. discriminate.
Qed.
Lemma eq_null_left : forall fr id ext lib tt b, truth tt (sql_fn fr id ext lib (t "eq") [VNone; b]) <> Some true.
Proof. intros. rewrite fn_eq, (proj2 (eq_null fr VNone b)) by auto. discriminate. Qed.

Lemma ordpairs_map : forall A B (f : A -> B) (R : B -> B -> Prop) l,
  ForallOrdPairs (fun x y => R (f x) (f y)) l -> ForallOrdPairs R (map f l).
Proof.
  intros A B f R l H. induction H as [|x l F H IH]; [constructor|]. cbn [map]. constructor; [|exact IH].
  rewrite Forall_forall in *. intros y I. apply in_map_iff in I. destruct I as (z & <- & I). auto.
Qed.
Lemma nodup_ordpairs : forall A (R : A -> A -> Prop) l, NoDup l -> (forall x y, x <> y -> R x y) -> ForallOrdPairs R l.
Proof.
  intros A R l H HR. induction H as [|x l N H IH]; [constructor|]. constructor; [|exact IH].
  apply Forall_forall. intros y I. apply HR. intros ->. contradiction.
Qed.

(** CASE e WHEN 1 THEN ... WHEN 2 THEN ... [ELSE ...] END with distinct integer constants, on rows where e
    is an integer or NULL. *)
Theorem simple_case_integers : forall frepr ident ext lib tt, ext (t "neg") = None ->
  forall row e (l : list (Z * expr)) els,
  let value := sem tt (sql_fn frepr ident ext lib) row in
  exact e -> Forall (fun kx => exact (snd kx)) l -> opt_all exact els ->
  NoDup (map fst l) -> (value e = VNone \/ exists z, value e = VInt z) ->
  let case := ECase (Some e) (map (fun kx => (EConst (VInt (fst kx)), snd kx)) l) els in
  ev frepr ident ext lib row (compile frepr ident ext case) = value case.
Proof.
  intros fr id ext lib tt N row e l els value Xe Xl Xels ND Hv. cbv zeta.
  assert (E : map (fun kx : Z * expr => (EConst (VInt (fst kx)), snd kx)) l = map when_const (map (fun kx => (VInt (fst kx), snd kx)) l))
    by (rewrite map_map; reflexivity).
  rewrite E.
  assert (M : map fst (map (fun kx : Z * expr => (VInt (fst kx), snd kx)) l) = map VInt (map fst l)) by (rewrite !map_map; reflexivity).
  assert (KV : forall z, key_value (case_key fr (VInt z)) = VInt z).
  { intros z. cbn [case_key]. change (t ":" ++ str_of_Z z) with (58%N :: str_of_Z z). cbn [key_value].
    rewrite int_str_round_trip. reflexivity. }
  apply (simple_case_lookup fr id ext lib tt N row e _ els (value e)); auto; rewrite ?M.
  - apply Forall_map. exact Xl.
  - intros v I. apply in_map_iff in I. destruct I as (z & <- & _). split; [apply KV|]. cbn [case_key]. rewrite !pyeq_text.
    repeat split; reflexivity.
  - apply ordpairs_map, nodup_ordpairs; [exact ND|]. intros a b Hab. cbn [case_key]. rewrite pyeq_text. apply text_eqb_neq.
    intros K. apply Hab. apply app_inv_head in K. pose proof (int_str_round_trip a) as Ra. rewrite K, int_str_round_trip in Ra. congruence.
  - intros v I. apply in_map_iff in I. destruct I as (z & <- & _). destruct Hv as [-> | [y ->]].
    + split; [discriminate|]. intros K. exfalso. eapply eq_null_left. exact K.
    + rewrite fn_eq_true, pyeq_int, (proj1 (compare_integers fr y z)). unfold bit.
      destruct (Z.eqb_spec y z); split; congruence.
  - apply ordpairs_map, nodup_ordpairs; [exact ND|]. intros a b Hab [A B]. destruct Hv as [Hv | [y Hv]]; rewrite Hv in *; [discriminate|].
    apply pyeq_int in A, B. congruence.
Qed.
Print Assumptions simple_case_integers.

(** The same with integers as they are written: a negative one is a minus sign before a number. *)
Definition written (z : Z) : expr := if (z <? 0)%Z then ENeg (EConst (VInt (- z))) else EConst (VInt z).
Theorem simple_case_signed : forall frepr ident ext lib tt, ext (t "neg") = None ->
  (forall z, sql_fn frepr ident ext lib (t "neg") [VInt z] = VInt (- z)) ->
  forall row e (l : list (Z * expr)) els,
  let value := sem tt (sql_fn frepr ident ext lib) row in
  exact e -> Forall (fun kx => exact (snd kx)) l -> opt_all exact els ->
  NoDup (map fst l) -> (value e = VNone \/ exists z, value e = VInt z) ->
  let case := ECase (Some e) (map (fun kx => (written (fst kx), snd kx)) l) els in
  ev frepr ident ext lib row (compile frepr ident ext case) = value case.
Proof.
  intros fr id ext lib tt N Neg row e l els value Xe Xl Xels ND Hv. cbv zeta.
  pose proof (simple_case_integers fr id ext lib tt N row e l els Xe Xl Xels ND Hv) as H. cbv zeta in H.
  assert (C : compile fr id ext (ECase (Some e) (map (fun kx => (written (fst kx), snd kx)) l) els) =
              compile fr id ext (ECase (Some e) (map (fun kx => (EConst (VInt (fst kx)), snd kx)) l) els)).
  { cbn [compile]. cbv zeta.
    assert (forallb (fun wt => is_const (fst wt)) (map (fun kx : Z * expr => (written (fst kx), snd kx)) l) = true) as ->.
    { apply forallb_forall. intros wt I. apply in_map_iff in I. destruct I as (kx & <- & _). cbn [fst]. unfold written.
      destruct (fst kx <? 0)%Z; reflexivity. }
    assert (forallb (fun wt => is_const (fst wt)) (map (fun kx : Z * expr => (EConst (VInt (fst kx)), snd kx)) l) = true) as ->.
    { apply forallb_forall. intros wt I. apply in_map_iff in I. destruct I as (kx & <- & _). reflexivity. }
    f_equal. f_equal. generalize [(VStr (t "#case"), compile fr id ext e)].
    clear. induction l as [|[z x] l IH]; intros d; cbn [map fold_left fst snd]; auto. rewrite IH.
    assert (const_value (written z) = VInt z) as ->; [|reflexivity].
    unfold written. destruct (z <? 0)%Z; cbn [const_value]; [rewrite Z.opp_involutive|]; reflexivity. }
  assert (S : value (ECase (Some e) (map (fun kx => (written (fst kx), snd kx)) l) els) =
              value (ECase (Some e) (map (fun kx => (EConst (VInt (fst kx)), snd kx)) l) els)).
  { unfold value. cbn [sem]. rewrite !map_map. f_equal. apply map_ext. intros [z x]. cbn [fst snd]. 
    assert (sem tt (sql_fn fr id ext lib) row (written z) = VInt z) as ->; [|reflexivity].
    unfold written. destruct (z <? 0)%Z; cbn [sem]; [rewrite Neg, Z.opp_involutive|]; reflexivity. }
  rewrite C, S. exact H.
Qed.
Print Assumptions simple_case_signed.

(** The same with text constants that do not start with ':' and are not "#case" or "#end". *)
Theorem simple_case_texts : forall frepr ident ext lib tt, ext (t "neg") = None ->
  forall row e (l : list (text * expr)) els,
  let value := sem tt (sql_fn frepr ident ext lib) row in
  exact e -> Forall (fun kx => exact (snd kx)) l -> opt_all exact els ->
  NoDup (map fst l) -> (forall s, In s (map fst l) -> hd 0%N s <> 58%N /\ s <> t "#case" /\ s <> t "#end") ->
  (value e = VNone \/ exists s, value e = VStr s) ->
  let case := ECase (Some e) (map (fun kx => (EConst (VStr (fst kx)), snd kx)) l) els in
  ev frepr ident ext lib row (compile frepr ident ext case) = value case.
Proof.
  intros fr id ext lib tt N row e l els value Xe Xl Xels ND Hs Hv. cbv zeta.
  assert (E : map (fun kx : text * expr => (EConst (VStr (fst kx)), snd kx)) l = map when_const (map (fun kx => (VStr (fst kx), snd kx)) l))
    by (rewrite map_map; reflexivity).
  rewrite E.
  assert (M : map fst (map (fun kx : text * expr => (VStr (fst kx), snd kx)) l) = map VStr (map fst l)) by (rewrite !map_map; reflexivity).
  assert (KV : forall s, hd 0%N s <> 58%N -> key_value (VStr s) = VStr s).
  { intros [|c s] H; [reflexivity|]. cbn [hd] in H. cbn [key_value].
    destruct c as [|p]; [reflexivity|]. do 6 (destruct p as [p|p|]; try reflexivity; try congruence). }
  apply (simple_case_lookup fr id ext lib tt N row e _ els (value e)); auto; rewrite ?M.
  - apply Forall_map. exact Xl.
  - intros v I. apply in_map_iff in I. destruct I as (s & <- & I). destruct (Hs s I) as (H1 & H2 & H3).
    cbn [case_key]. rewrite !pyeq_text. split; [apply KV; exact H1|]. repeat split; apply text_eqb_neq; congruence.
  - apply ordpairs_map, nodup_ordpairs; [exact ND|]. intros a b Hab. cbn [case_key]. rewrite pyeq_text. apply text_eqb_neq. exact Hab.
  - intros v I. apply in_map_iff in I. destruct I as (s & <- & _). destruct Hv as [-> | [y ->]].
    + split; [discriminate|]. intros K. exfalso. eapply eq_null_left. exact K.
    + rewrite fn_eq_true, pyeq_text, text_eqb_spec, (proj1 (compare_texts fr y s)). split; congruence.
  - apply ordpairs_map, nodup_ordpairs; [exact ND|]. intros a b Hab [A B]. destruct Hv as [Hv | [y Hv]]; rewrite Hv in *; [discriminate|].
    rewrite pyeq_text in A, B. apply text_eqb_spec in A, B. congruence.
Qed.
Print Assumptions simple_case_texts.

(** ** Where the compiled form differs from SQL.  [R]: a row with a = NULL and everything else 5;
    [val0 e] / [sql0 e]: compiled and SQL value on it. *)
Definition R (n : text) : val := if text_eqb n (t "a") then VNone else VInt 5.
Definition id0 (_ _ : val) : bool := true.
Definition no_ext (_ : text) : option (list val -> val) := None.
Definition no_lib (_ : text) (_ : list val) : val := VNone.
Definition fr0 (_ : spec_float) : text := [].
Definition num_text (s : text) : bool := match int_of_text s with Ok z => negb (z =? 0) | Err _ => false end.
Definition val0 (e : expr) : val := ev fr0 id0 no_ext no_lib R (compile fr0 id0 no_ext e).
Definition sql0 (e : expr) : val := sem num_text (sql_fn fr0 id0 no_ext no_lib) R e.
Definition a_is_1 := EBin (t "eq") (ECol (t "a")) (EConst (VInt 1)).
Definition b_is_5 := EBin (t "eq") (ECol (t "b")) (EConst (VInt 5)).
Definition b_is_6 := EBin (t "eq") (ECol (t "b")) (EConst (VInt 6)).

(** NOT (a = 1 AND b = 5) and NOT (a = 1 OR b = 6) are NULL when a is NULL and b is 5; compiled, they are true. *)
Theorem not_null_and_refuted :
  val0 (ENot (EParen (EAnd a_is_1 b_is_5))) = VInt 1 /\ sql0 (ENot (EParen (EAnd a_is_1 b_is_5))) = VNone /\
  val0 (ENot (EParen (EOr a_is_1 b_is_6))) = VInt 1 /\ sql0 (ENot (EParen (EOr a_is_1 b_is_6))) = VNone.
Proof. repeat split. Qed.
(** NOT BETWEEN: a NOT BETWEEN 1 AND 2 holds for NULL. *)
Theorem not_between_null_refuted :
  let e := ENot (EBetween (ECol (t "a")) (EConst (VInt 1)) (EConst (VInt 2))) in
  val0 e = VInt 1 /\ sql0 e = VNone.
Proof. repeat split. Qed.
(** b AND b is the number 5, not 1. *)
Theorem and_value_refuted :
  let e := EAnd (ECol (t "b")) (ECol (t "b")) in val0 e = VInt 5 /\ sql0 e = VInt 1.
Proof. repeat split. Qed.
(** CASE WHEN without ELSE gives 0, not NULL; the CASE e WHEN constant form does give NULL. *)
Theorem case_without_else_refuted :
  let e := ECase None [(b_is_6, EConst (VInt 1))] None in
  let e' := ECase (Some (ECol (t "b"))) [(EConst (VInt 6), EConst (VInt 1))] None in
  val0 e = VInt 0 /\ sql0 e = VNone /\ val0 e' = VNone /\ sql0 e' = VNone.
Proof. repeat split. Qed.
(** A text condition is true unless empty: IF('0', 1, 2). *)
Theorem text_condition_refuted :
  let e := EIf (EConst (VStr (t "0"))) (EConst (VInt 1)) (Some (EConst (VInt 2))) in val0 e = VInt 1 /\ sql0 e = VInt 2.
Proof. repeat split. Qed.
(** CASE a WHEN NULL matches NULL; of two WHEN 5 the last one counts; '5' does not match 5; a branch
    WHEN '#end' is lost. *)
Theorem simple_case_refuted :
  let c e ifs := ECase (Some e) ifs (Some (EConst (VInt 0))) in
  let e1 := c (ECol (t "a")) [(EConst VNone, EConst (VInt 1))] in
  let e2 := c (ECol (t "b")) [(EConst (VInt 5), EConst (VInt 1)); (EConst (VInt 5), EConst (VInt 2))] in
  let e3 := c (EConst (VStr (t "5"))) [(EConst (VInt 5), EConst (VInt 1))] in
  let e4 := c (EConst (VStr (t "#end"))) [(EConst (VStr (t "#end")), EConst (VInt 1))] in
  (val0 e1 = VInt 1 /\ sql0 e1 = VInt 0) /\ (val0 e2 = VInt 2 /\ sql0 e2 = VInt 1) /\
  (val0 e3 = VInt 0 /\ sql0 e3 = VInt 1) /\ (val0 e4 = VInt 0 /\ sql0 e4 = VInt 1).
Proof. repeat split. Qed.
Print Assumptions simple_case_refuted.

(** Non-trivial members of the classes. *)
Example class_exact : exact (EIf (EAnd a_is_1 (EOr b_is_5 (EBetween (ECol (t "b")) (EConst (VInt 1)) (ECol (t "c")))))
                                 (ECoalesce (ECol (t "a")) [ECol (t "b"); EConst (VInt 0)])
                                 (Some (ECase None [(ENot b_is_5, EConst (VInt 1)); (b_is_6, ECol (t "b"))] (Some (EConst VNone))))).
Proof.
  assert (A : cond a_is_1) by (apply C_bool; [repeat constructor|apply B_cmp; reflexivity]).
  assert (X5 : exact b_is_5) by repeat constructor. assert (B5 : boolean b_is_5) by (apply B_cmp; reflexivity).
  assert (X6 : exact b_is_6) by repeat constructor. assert (B6 : boolean b_is_6) by (apply B_cmp; reflexivity).
  apply X_if.
  - apply C_and; [exact A|]. apply C_or; [apply C_bool; assumption|]. apply C_between; constructor.
  - repeat constructor.
  - apply X_case; [|constructor]. repeat constructor; try (apply C_bool; try assumption; constructor; assumption).
Qed.
Example class_known : known (sem num_text (sql_fn fr0 id0 no_ext no_lib) R) (ENot (EParen (EAnd b_is_5 (ENot b_is_6)))).
Proof.
  assert (X5 : exact b_is_5) by repeat constructor. assert (B5 : boolean b_is_5) by (apply B_cmp; reflexivity).
  assert (X6 : exact b_is_6) by repeat constructor. assert (B6 : boolean b_is_6) by (apply B_cmp; reflexivity).
  apply K_not, K_paren, K_and; [|apply K_not]; apply K_leaf; auto; discriminate.
Qed.

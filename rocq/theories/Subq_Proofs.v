From Verif Require Import Base Reduce_Spec Joins_Proofs Subq_Syntax Subq_Spec Subq_Model.
Open Scope nat_scope.

Section P.
Variable V : Type.
Variable L : lang V.
Variable same : V -> V -> bool.
Variables current parents : list text.
Hypothesis disjoint : forall tb, In tb current -> ~ In tb parents.
Hypothesis and_true : forall x y, l_true V L (l_and V L x y) = l_true V L x && l_true V L y.

Notation expr := (expr V).
Notation row := (row V).
Notation columns := (columns V).
Notation true_ := (l_true V L).
Notation ev := (ev V L).
Notation sql_look := (sql_look V L current).
Notation column_of := (column_of V L).
Notation conv := (conv V L).
Notation parsed := (parsed V).

Definition scoped (c : column) : Prop := forall tb, c_table c = Some tb -> In tb current \/ In tb parents.

Lemma mem_spec : forall x l, mem x l = true <-> In x l.
Proof.
  intros x l. unfold mem. rewrite existsb_exists. split.
  - intros (y & I & E). apply text_eqb_spec in E. subst y. exact I.
  - intros I. exists x. split; [exact I|apply text_eqb_refl].
Qed.
Lemma inner_own : forall c, inner_column current c = true <-> own current c.
Proof.
  intros c. unfold inner_column, own. destruct (c_table c) as [tb|].
  - rewrite mem_spec. split; [intros I x E; injection E as <-; exact I|intros H; apply H; reflexivity].
  - split; [intros _ x E; discriminate|reflexivity].
Qed.
Lemma parent_outer : forall c, scoped c -> parent_column current parents c = true <-> outer current c.
Proof.
  intros c S. unfold parent_column, outer. unfold scoped in S. destruct (c_table c) as [tb|].
  - rewrite andb_true_iff, negb_true_iff. split.
    + intros [N M]. exists tb. split; [reflexivity|]. intros I. apply mem_spec in I. congruence.
    + intros (x & E & N). injection E as <-. destruct (S tb eq_refl) as [I|I]; [contradiction|].
      split; [|apply mem_spec; exact I]. destruct (mem tb current) eqn:M; [apply mem_spec in M; contradiction|reflexivity].
  - split; [discriminate|intros (x & E & _); discriminate].
Qed.
Lemma inner_or_parent : forall c, scoped c -> parent_column current parents c = negb (inner_column current c).
Proof.
  intros c S. destruct (inner_column current c) eqn:I.
  - apply inner_own in I. destruct (parent_column current parents c) eqn:P; [|reflexivity].
    apply (parent_outer c S) in P. destruct P as (tb & E & N). exfalso. apply N, I, E.
  - destruct (parent_column current parents c) eqn:P; [reflexivity|]. exfalso.
    unfold inner_column in I. unfold parent_column in P. unfold scoped in S. destruct (c_table c) as [tb|]; [|discriminate].
    rewrite I in P. cbn [negb andb] in P. destruct (S tb eq_refl) as [J|J]; apply mem_spec in J; congruence.
Qed.
Lemma in_parents_parent : forall c, in_parents parents c = true -> parent_column current parents c = true.
Proof.
  intros c H. unfold in_parents in H. unfold parent_column. destruct (c_table c) as [tb|]; [|discriminate].
  rewrite H. destruct (mem tb current) eqn:M; [|reflexivity]. apply mem_spec in M, H. exfalso. exact (disjoint tb M H).
Qed.
Lemma parent_in_parents : forall c, parent_column current parents c = true -> in_parents parents c = true.
Proof.
  intros c H. unfold parent_column in H. unfold in_parents. destruct (c_table c) as [tb|]; [|discriminate].
  apply andb_true_iff in H. apply H.
Qed.

(** *** Values depend on the columns only *)
Lemma ev_ext : forall e f g, (forall c, In c (columns e) -> f c = g c) -> ev f e = ev g e.
Proof.
  induction e as [c|v|h args IH|a b IHa IHb|a b IHa IHb] using expr_ind'; intros f g H; cbn [Subq_Syntax.ev Subq_Spec.columns] in *.
  - apply H. left. reflexivity.
  - reflexivity.
  - f_equal. apply map_ext_in. intros x I. rewrite Forall_forall in IH. apply (IH x I). intros c J. apply H. apply in_flat_map. exists x. split; assumption.
  - rewrite (IHa f g), (IHb f g); [reflexivity| |]; intros c I; apply H; apply in_or_app; [right|left]; exact I.
  - rewrite (IHa f g), (IHb f g); [reflexivity| |]; intros c I; apply H; apply in_or_app; [right|left]; exact I.
Qed.
Lemma sql_inner : forall r o c, inner_column current c = true -> sql_look r o c = column_of r c.
Proof.
  intros r o c H. unfold Subq_Spec.sql_look, Subq_Model.column_of. unfold inner_column in H.
  destruct c as [[tb|] n ty]; cbn [c_table c_name c_type] in *; [|reflexivity].
  unfold mem in H. rewrite H. reflexivity.
Qed.
Lemma sql_outer : forall r o c, inner_column current c = false -> sql_look r o c = column_of o c.
Proof.
  intros r o c H. unfold Subq_Spec.sql_look, Subq_Model.column_of. unfold inner_column in H.
  destruct c as [[tb|] n ty]; cbn [c_table c_name c_type] in *; [|discriminate].
  unfold mem in H. rewrite H. reflexivity.
Qed.
Lemma parent_columns_spec : forall e c, In c (parent_columns V current parents e) <-> In c (columns e) /\ parent_column current parents c = true.
Proof.
  induction e as [x|v|h args IH|a b IHa IHb|a b IHa IHb] using expr_ind'; intros c; cbn [parent_columns Subq_Spec.columns].
  - destruct (parent_column current parents x) eqn:P; cbn [In]; split.
    + intros [<-|[]]. split; [left; reflexivity|exact P].
    + intros [[<-|[]] _]. left. reflexivity.
    + intros [].
    + intros [[<-|[]] Q]. congruence.
  - split; [intros []|intros [[] _]].
  - rewrite Forall_forall in IH. rewrite !in_flat_map. split.
    + intros (x & I & J). apply (IH x I) in J as [J Q]. split; [exists x; split; assumption|exact Q].
    + intros [(x & I & J) Q]. exists x. split; [exact I|]. apply (IH x I). split; assumption.
  - rewrite !in_app_iff, IHa, IHb. tauto.
  - rewrite !in_app_iff, IHa, IHb. tauto.
Qed.
Lemma opt_eqb_spec : forall a b, opt_eqb a b = true <-> a = b.
Proof.
  intros [a|] [b|]; cbn [opt_eqb]; split; intros H; try discriminate; try reflexivity.
  - apply text_eqb_spec in H. congruence.
  - injection H as <-. apply text_eqb_refl.
Qed.
Lemma column_eqb_spec : forall a b, column_eqb a b = true <-> a = b.
Proof.
  intros [t1 n1 y1] [t2 n2 y2]. unfold column_eqb. cbn [c_table c_name c_type]. rewrite !andb_true_iff, !opt_eqb_spec, text_eqb_spec. split.
  - intros [[-> ->] ->]. reflexivity.
  - intros E. injection E as <- <- <-. repeat split; reflexivity.
Qed.

(** *** The selected columns *)
Lemma add_select_in : forall c s x, In x (add_select c s) <-> In x s \/ x = c.
Proof.
  intros c s x. unfold add_select. destruct (existsb (column_eqb c) s) eqn:E.
  - apply existsb_exists in E as (y & I & E). apply column_eqb_spec in E. subst y. split; [tauto|]. intros [H| ->]; assumption.
  - rewrite in_app_iff. cbn [In]. split; intros [H|H]; try (left; exact H); right; [destruct H as [->|[]]; reflexivity|left; symmetry; exact H].
Qed.
Lemma select_columns_in : forall e s x, In x (select_columns V current e s) <-> In x s \/ (In x (columns e) /\ inner_column current x = true).
Proof.
  induction e as [c|v|h args IH|a b IHa IHb|a b IHa IHb] using expr_ind'; intros s x; cbn [select_columns Subq_Spec.columns].
  - destruct (inner_column current c) eqn:I; [rewrite add_select_in|]; cbn [In].
    + split; [intros [H| ->]; [left; exact H|right; split; [left; reflexivity|exact I]]|].
      intros [H|[[->|[]] _]]; [left; exact H|right; reflexivity].
    + split; [intros H; left; exact H|]. intros [H|[[->|[]] J]]; [exact H|congruence].
  - cbn [In]. tauto.
  - revert s. induction IH as [|y args Hy IH IHl]; intros s; cbn [fold_left flat_map]; [cbn [In]; tauto|].
    rewrite IHl, Hy, in_app_iff. tauto.
  - rewrite IHb, IHa, in_app_iff. tauto.
  - rewrite IHb, IHa, in_app_iff. tauto.
Qed.
Lemma nth_position : forall (f : column -> V) c l d, In c l -> nth (position c l) (map f l) d = f c.
Proof.
  intros f c l d. induction l as [|x l IH]; intros I; [destruct I|]. cbn [position map].
  destruct (column_eqb c x) eqn:E; [apply column_eqb_spec in E; subst x; reflexivity|].
  cbn [nth]. apply IH. destruct I as [->|I]; [|exact I]. rewrite (proj2 (column_eqb_spec c c) eq_refl) in E. discriminate.
Qed.

(** *** The conditions collected *)
Definition kept_holds (s : parsed) (r : row) : bool := forallb (fun e => true_ (ev (inner_look V L current r) e)) (p_kept V s).
Definition keys_hold (s : parsed) (r o : row) : bool := forallb (fun k => same (column_of r (fst k)) (column_of o (snd k))) (p_keys V s).
Definition inter_hold (s : parsed) (r o : row) : bool := forallb (fun e => true_ (ev (sql_look r o) e)) (p_interceptors V s).
Definition holds (s : parsed) (r o : row) : bool := kept_holds s r && keys_hold s r o && inter_hold s r o.

Definition complete (s : parsed) : Prop :=
  forall e c, In e (p_interceptors V s) -> In c (columns e) -> inner_column current c = true -> In c (p_selects V s).
Definition inner_selects (s : parsed) : Prop := p_interceptors V s = [] -> p_selects V s = [].

Lemma kept_value : forall e r o, (forall c, In c (columns e) -> scoped c) -> parent_columns V current parents e = [] ->
  ev (inner_look V L current r) e = ev (sql_look r o) e.
Proof.
  intros e r o S P. apply ev_ext. intros c I. assert (Q : inner_column current c = true).
  { destruct (inner_column current c) eqn:E; [reflexivity|]. pose proof (inner_or_parent c (S c I)) as H. rewrite E in H.
    assert (J : In c (parent_columns V current parents e)) by (apply parent_columns_spec; split; assumption). rewrite P in J. destruct J. }
  unfold inner_look. rewrite Q. symmetry. apply sql_inner. exact Q.
Qed.
Lemma forallb_snoc : forall (A : Type) (f : A -> bool) l x, forallb f (l ++ [x]) = forallb f l && f x.
Proof. intros. rewrite forallb_app. cbn [forallb]. rewrite andb_true_r. reflexivity. Qed.
Lemma other_holds : forall e s r o, (forall c, In c (columns e) -> scoped c) ->
  holds (other V current parents e s) r o = holds s r o && true_ (ev (sql_look r o) e).
Proof.
  intros e s r o S. unfold other. destruct (parent_columns V current parents e) eqn:P; unfold holds, kept_holds, keys_hold, inter_hold;
    cbn [p_kept p_keys p_interceptors]; rewrite forallb_snoc.
  - rewrite (kept_value e r o S P). destruct (forallb _ (p_kept V s)), (forallb _ (p_keys V s)), (forallb _ (p_interceptors V s)), (true_ _); reflexivity.
  - rewrite !andb_assoc. reflexivity.
Qed.
Lemma other_complete : forall e s, complete s -> complete (other V current parents e s).
Proof.
  intros e s C. unfold other. destruct (parent_columns V current parents e) as [|d0 ds0] eqn:P; [exact C|].
  intros x c I J K. cbn [p_interceptors p_selects] in *. apply select_columns_in. apply in_app_or in I as [I|[<-|[]]].
  - left. exact (C x c I J K).
  - right. split; assumption.
Qed.
Lemma other_selects : forall e s, inner_selects s -> inner_selects (other V current parents e s).
Proof.
  intros e s C. unfold other. destruct (parent_columns V current parents e) eqn:P; [exact C|].
  intros E. cbn [p_interceptors] in E. destruct (p_interceptors V s); discriminate.
Qed.
Lemma orient_spec : forall l r c p, orient current parents l r = Some (c, p) ->
  inner_column current c = true /\ parent_column current parents p = true /\ c_type c = None /\ ((c = l /\ p = r) \/ (c = r /\ p = l)).
Proof.
  intros l r c p H. unfold orient in H. destruct (inner_column current l && in_parents parents r && untyped l) eqn:E.
  - injection H as <- <-. apply andb_true_iff in E as [E U]. apply andb_true_iff in E as [I P].
    split; [exact I|]. split; [apply in_parents_parent; exact P|]. split; [unfold untyped in U; destruct (c_type l); [discriminate|reflexivity]|].
    left. split; reflexivity.
  - destruct (inner_column current r && in_parents parents l && untyped r) eqn:E2; [|discriminate].
    injection H as <- <-. apply andb_true_iff in E2 as [E2 U]. apply andb_true_iff in E2 as [I P].
    split; [exact I|]. split; [apply in_parents_parent; exact P|]. split; [unfold untyped in U; destruct (c_type r); [discriminate|reflexivity]|].
    right. split; reflexivity.
Qed.

(** The package's equality is that of = on what is compared. *)
Definition compared_same (e : expr) (r o : row) : Prop :=
  forall a b, In (Eq V (Col V a) (Col V b)) (conjuncts V e) ->
    let x := sql_look r o a in let y := sql_look r o b in true_ (l_eq V L x y) = same x y /\ same x y = same y x.

(** What is not an AND. *)
Definition atom (e : expr) : Prop := match e with And _ _ _ => False | _ => True end.
Lemma atom_conjuncts : forall e, atom e -> conjuncts V e = [e].
Proof. intros [c|v|f a|a b|a b] H; try reflexivity. destruct H. Qed.
Inductive step (e : expr) (s : parsed) : res parsed -> Prop :=
| Step_key l r c p : e = Eq V (Col V l) (Col V r) -> orient current parents l r = Some (c, p) ->
    existsb (fun k => column_eqb (fst k) c && column_eqb (snd k) p) (p_keys V s) = false ->
    step e s (Ok {| p_keys := p_keys V s ++ [(c, p)]; p_selects := p_selects V s; p_interceptors := p_interceptors V s; p_kept := p_kept V s |})
| Step_again l r c p : e = Eq V (Col V l) (Col V r) -> orient current parents l r = Some (c, p) ->
    existsb (fun k => column_eqb (fst k) c && column_eqb (snd k) p) (p_keys V s) = true -> step e s (Err KeyError)
| Step_other : (forall l r, e = Eq V (Col V l) (Col V r) -> orient current parents l r = None) -> step e s (Ok (other V current parents e s)).
Lemma parse_step : forall e s, atom e -> step e s (parse_where V current parents e s).
Proof.
  intros e s A. destruct e as [c|v|f args|a b|a b]; try destruct A;
    try (cbn [parse_where]; apply Step_other; intros l r E; discriminate E).
  cbn [parse_where]. destruct a as [l|v|f args|a1 a2|a1 a2]; try (apply Step_other; intros l' r' E; discriminate E).
  destruct b as [r|v|f args|a1 a2|a1 a2]; try (apply Step_other; intros l' r' E; discriminate E).
  destruct (orient current parents l r) as [[c p]|] eqn:O.
  - destruct (existsb _ (p_keys V s)) eqn:X; [eapply Step_again|eapply Step_key]; try reflexivity; eassumption.
  - apply Step_other. intros l' r' E. injection E as <- <-. exact O.
Qed.

Lemma expr_cases : forall (P : expr -> Prop), (forall a b, P a -> P b -> P (And V a b)) -> (forall e, atom e -> P e) -> forall e, P e.
Proof. intros P HA HO. induction e using expr_ind'; try (apply HO; exact I). apply HA; assumption. Qed.

Lemma parse_holds : forall e s s' r o, (forall c, In c (columns e) -> scoped c) -> compared_same e r o ->
  parse_where V current parents e s = Ok s' -> holds s' r o = holds s r o && true_ (ev (sql_look r o) e).
Proof.
  induction e as [a b IHa IHb|e A] using expr_cases; intros s s' r o S C H.
  - cbn [parse_where] in H. destruct (parse_where V current parents a s) as [s1|x] eqn:P; [|discriminate].
    rewrite (IHb s1 s' r o); [| | |exact H].
    + rewrite (IHa s s1 r o); [| | |exact P].
      * cbn [Subq_Syntax.ev]. rewrite and_true, andb_assoc. reflexivity.
      * intros c I. apply S. cbn [Subq_Spec.columns]. apply in_or_app. left. exact I.
      * intros x y I. apply C. cbn [conjuncts]. apply in_or_app. left. exact I.
    + intros c I. apply S. cbn [Subq_Spec.columns]. apply in_or_app. right. exact I.
    + intros x y I. apply C. cbn [conjuncts]. apply in_or_app. right. exact I.
  - pose proof (parse_step e s A) as T. rewrite H in T. inversion T as [l m c p E O X Q|l m c p E O X Q|N Q]; subst.
    + destruct (orient_spec _ _ _ _ O) as (Ic & Pp & _ & D).
      unfold holds, kept_holds, keys_hold, inter_hold. cbn [p_kept p_keys p_interceptors]. rewrite forallb_snoc. cbn [fst snd].
      assert (F : true_ (ev (sql_look r o) (Eq V (Col V l) (Col V m))) = same (column_of r c) (column_of o p)).
      { destruct (C l m) as [C1 C2]; [left; reflexivity|]. cbn [Subq_Syntax.ev].
        assert (Ip : inner_column current p = false).
        { destruct (inner_column current p) eqn:J; [|reflexivity]. apply inner_own in J.
          unfold parent_column in Pp. destruct (c_table p) as [tb|] eqn:T1; [|discriminate]. apply andb_true_iff in Pp as [N1 _].
          apply negb_true_iff in N1. rewrite (proj2 (mem_spec tb current) (J tb T1)) in N1. discriminate. }
        destruct D as [[-> ->]|[-> ->]].
        - rewrite C1. rewrite (sql_inner r o l Ic), (sql_outer r o m Ip). reflexivity.
        - rewrite C1, C2. rewrite (sql_inner r o m Ic), (sql_outer r o l Ip). reflexivity. }
      rewrite F. destruct (forallb _ (p_kept V s)), (forallb _ (p_keys V s)), (same _ _), (forallb _ (p_interceptors V s)); reflexivity.
    + apply other_holds. exact S.
Qed.
Lemma parse_complete : forall e s s', complete s -> inner_selects s -> parse_where V current parents e s = Ok s' -> complete s' /\ inner_selects s'.
Proof.
  induction e as [a b IHa IHb|e A] using expr_cases; intros s s' C I H.
  - cbn [parse_where] in H. destruct (parse_where V current parents a s) as [s1|x] eqn:P; [|discriminate].
    destruct (IHa s s1 C I P) as [C1 I1]. exact (IHb s1 s' C1 I1 H).
  - pose proof (parse_step e s A) as T. rewrite H in T. inversion T as [l m c p E O X Q|l m c p E O X Q|N Q]; subst.
    + split; assumption.
    + split; [apply other_complete|apply other_selects]; assumption.
Qed.

(** *** Matching *)
Lemma same_list_keys : forall ks r o, Subq_Model.same_list V same (map (fun k : column * column => column_of r (fst k)) ks) (map (fun k => column_of o (snd k)) ks)
  = forallb (fun k => same (column_of r (fst k)) (column_of o (snd k))) ks.
Proof. intros ks r o. induction ks as [|k ks IH]; [reflexivity|]. cbn [map Subq_Model.same_list forallb]. rewrite IH. reflexivity. Qed.
Lemma inter_value : forall s v ks r o, complete s -> (forall e c, In e (p_interceptors V s) -> In c (columns e) -> scoped c) ->
  forallb (fun e => true_ (ev (interceptor_look V L current s {| o_value := v; o_keys := ks; o_selects := map (column_of r) (p_selects V s) |} o) e)) (p_interceptors V s)
  = inter_hold s r o.
Proof.
  intros s v ks r o C S. apply forallb_ext_in. intros e I. f_equal. apply ev_ext. intros c J. unfold interceptor_look. cbn [o_selects].
  destruct (inner_column current c) eqn:K.
  - rewrite nth_position by exact (C e c I J K). symmetry. apply sql_inner. exact K.
  - symmetry. apply sql_outer. exact K.
Qed.
Definition in_batch (s : parsed) (outers : list row) (r : row) : bool :=
  forallb (fun k => existsb (fun o => same (column_of r (fst k)) (column_of o (snd k))) outers) (p_keys V s).
Lemma keys_in_batch : forall s r o outers, In o outers -> keys_hold s r o = true -> in_batch s outers r = true.
Proof.
  intros s r o outers I H. unfold keys_hold, in_batch in *. rewrite forallb_forall in *. intros k J. apply existsb_exists. exists o. split; [exact I|apply H; exact J].
Qed.
Lemma parse_interceptors : forall e s s', (forall c, In c (columns e) -> scoped c) -> (forall x c, In x (p_interceptors V s) -> In c (columns x) -> scoped c) ->
  parse_where V current parents e s = Ok s' -> forall x c, In x (p_interceptors V s') -> In c (columns x) -> scoped c.
Proof.
  induction e as [a b IHa IHb|e A] using expr_cases; intros s s' S C H.
  - cbn [parse_where] in H. destruct (parse_where V current parents a s) as [s1|x] eqn:P; [|discriminate].
    apply (IHb s1 s'); [| |exact H].
    + intros c I. apply S. cbn [Subq_Spec.columns]. apply in_or_app. right. exact I.
    + apply (IHa s s1); [|exact C|exact P]. intros c I. apply S. cbn [Subq_Spec.columns]. apply in_or_app. left. exact I.
  - pose proof (parse_step e s A) as T. rewrite H in T. inversion T as [l m c p E O X Q|l m c p E O X Q|N Q]; subst; [exact C|].
    intros x c I J. unfold other in I. destruct (parent_columns V current parents e); cbn [p_interceptors] in I; [exact (C x c I J)|].
    apply in_app_or in I as [I|[<-|[]]]; [exact (C x c I J)|exact (S c J)].
Qed.

(** *** When it is accepted *)
Lemma orient_correlation : forall l m c p, scoped l -> scoped m ->
  (orient current parents l m = Some (c, p) <-> correlation V current (Eq V (Col V l) (Col V m)) c p).
Proof.
  intros l m c p Sl Sm. split.
  - intros O. destruct (orient_spec _ _ _ _ O) as (I & P & U & D).
    split; [destruct D as [[-> ->]|[-> ->]]; [left|right]; reflexivity|]. split; [apply inner_own; exact I|]. split; [|exact U].
    apply parent_outer; [destruct D as [[-> ->]|[-> ->]]; assumption|exact P].
  - intros ([E|E] & O & P & U); injection E as -> ->.
    + apply (parent_outer p Sm) in P. apply inner_own in O. unfold orient. rewrite O, (parent_in_parents p P). unfold untyped. rewrite U. reflexivity.
    + apply (parent_outer p Sl) in P. apply inner_own in O. unfold orient.
      assert (inner_column current p = false) as ->.
      { destruct (inner_column current p) eqn:J; [|reflexivity]. rewrite (inner_or_parent p Sl), J in P. discriminate. }
      cbn [andb]. rewrite O, (parent_in_parents p P). unfold untyped. rewrite U. reflexivity.
Qed.
Lemma key_mem : forall c p ks, existsb (fun k => column_eqb (fst k) c && column_eqb (snd k) p) ks = true <-> In (c, p) ks.
Proof.
  intros c p ks. rewrite existsb_exists. split.
  - intros ([x y] & I & E). apply andb_true_iff in E as [E1 E2]. cbn [fst snd] in *. apply column_eqb_spec in E1, E2. subst. exact I.
  - intros I. exists (c, p). split; [exact I|]. cbn [fst snd]. rewrite (proj2 (column_eqb_spec c c) eq_refl), (proj2 (column_eqb_spec p p) eq_refl). reflexivity.
Qed.
(** Running over the list of conjuncts. *)
Fixpoint parse_all (es : list expr) (s : parsed) : res parsed :=
  match es with [] => Ok s | e :: r => match parse_where V current parents e s with Ok s => parse_all r s | Err x => Err x end end.
Lemma parse_all_app : forall a b s, parse_all (a ++ b) s = match parse_all a s with Ok s => parse_all b s | Err x => Err x end.
Proof. induction a as [|e a IH]; intros b s; [reflexivity|]. cbn [app parse_all]. destruct (parse_where V current parents e s); [apply IH|reflexivity]. Qed.
Lemma parse_conjuncts : forall e s, parse_where V current parents e s = parse_all (conjuncts V e) s.
Proof.
  induction e as [a b IHa IHb|e A] using expr_cases; intros s.
  - cbn [parse_where conjuncts]. rewrite parse_all_app, IHa. destruct (parse_all (conjuncts V a) s); [apply IHb|reflexivity].
  - rewrite (atom_conjuncts e A). cbn [parse_all]. destruct (parse_where V current parents e s); reflexivity.
Qed.
Lemma conjuncts_atoms : forall e x, In x (conjuncts V e) -> atom x.
Proof.
  induction e as [a b IHa IHb|e A] using expr_cases; intros x I.
  - cbn [conjuncts] in I. apply in_app_or in I as [I|I]; [apply IHa|apply IHb]; exact I.
  - rewrite (atom_conjuncts e A) in I. destruct I as [<-|[]]. exact A.
Qed.
Lemma conjuncts_columns : forall e x c, In x (conjuncts V e) -> In c (columns x) -> In c (columns e).
Proof.
  induction e as [a b IHa IHb|e A] using expr_cases; intros x c I J.
  - cbn [conjuncts Subq_Spec.columns] in *. apply in_or_app. apply in_app_or in I as [I|I]; [left; apply (IHa x)|right; apply (IHb x)]; assumption.
  - rewrite (atom_conjuncts e A) in I. destruct I as [<-|[]]. exact J.
Qed.
Lemma parse_accepts : forall es s, Forall atom es -> (forall e c, In e es -> In c (columns e) -> scoped c) ->
  (forall i j e e' c p, nth_error es i = Some e -> nth_error es j = Some e' -> correlation V current e c p -> correlation V current e' c p -> i = j) ->
  (forall e c p, In e es -> correlation V current e c p -> ~ In (c, p) (p_keys V s)) ->
  exists s', parse_all es s = Ok s'.
Proof.
  induction es as [|e es IH]; intros s A S N K; [exists s; reflexivity|]. cbn [parse_all].
  inversion A as [|? ? A1 A2]; subst.
  assert (N2 : forall i j x y c p, nth_error es i = Some x -> nth_error es j = Some y -> correlation V current x c p -> correlation V current y c p -> i = j).
  { intros i j x y c p I J P Q. specialize (N (Datatypes.S i) (Datatypes.S j) x y c p I J P Q). lia. }
  pose proof (parse_step e s A1) as T. inversion T as [l m c p E O X Q|l m c p E O X Q|M Q]; subst.
  - apply IH; [exact A2|intros; eapply S; [right|]; eassumption|exact N2|].
    cbn [p_keys]. intros x c' p' I Cx J. apply in_app_or in J as [J|[J|[]]]; [exact (K x c' p' (or_intror I) Cx J)|].
    injection J as <- <-. assert (Co : correlation V current (Eq V (Col V l) (Col V m)) c p).
    { apply orient_correlation; [| |exact O]; apply (S _ _ (or_introl eq_refl)); cbn [Subq_Spec.columns app In]; tauto. }
    apply In_nth_error in I as [i I]. specialize (N 0 (Datatypes.S i) _ x c p eq_refl I Co Cx). discriminate.
  - exfalso. apply key_mem in X.
    apply (K _ c p (or_introl eq_refl)); [|exact X].
    apply orient_correlation; [| |exact O]; apply (S _ _ (or_introl eq_refl)); cbn [Subq_Spec.columns app In]; tauto.
  - apply IH; [exact A2|intros; eapply S; [right|]; eassumption|exact N2|].
    intros x c p I Cx. unfold other. destruct (parent_columns V current parents e); cbn [p_keys]; apply (K x c p (or_intror I) Cx).
Qed.
Lemma parse_only_keyerror : forall es s x, parse_all es s = Err x -> Forall atom es -> x = KeyError.
Proof.
  induction es as [|e es IH]; intros s x H A; [discriminate|]. cbn [parse_all] in H. inversion A as [|? ? A1 A2]; subst.
  pose proof (parse_step e s A1) as T. inversion T as [l m c p E O X Q|l m c p E O X Q|M Q]; subst; rewrite <- Q in H.
  - exact (IH _ _ H A2).
  - injection H as <-. reflexivity.
  - exact (IH _ _ H A2).
Qed.
Lemma parse_ok_distinct : forall es s s', Forall atom es -> (forall e c, In e es -> In c (columns e) -> scoped c) -> parse_all es s = Ok s' ->
  (forall e c p, In e es -> correlation V current e c p -> ~ In (c, p) (p_keys V s)) /\ no_repetition V current es.
Proof.
  induction es as [|e es IH]; intros s s' A S H; [split; [intros e c p []|intros i j e e' c p I; destruct i; discriminate]|].
  cbn [parse_all] in H. inversion A as [|? ? A1 A2]; subst.
  assert (S2 : forall e c, In e es -> In c (columns e) -> scoped c) by (intros x c I; apply S; right; exact I).
  assert (S1 : forall c, In c (columns e) -> scoped c) by (intros c I; apply (S e c (or_introl eq_refl) I)).
  assert (CO : forall c p, correlation V current e c p -> exists l m, e = Eq V (Col V l) (Col V m) /\ orient current parents l m = Some (c, p)).
  { intros c p Co. pose proof Co as [Sh _]. assert (exists l m, e = Eq V (Col V l) (Col V m)) as (l & m & ->) by (destruct Sh as [->| ->]; eauto).
    exists l, m. split; [reflexivity|]. apply orient_correlation; [| |exact Co]; apply S1; cbn [Subq_Spec.columns app In]; tauto. }
  pose proof (parse_step e s A1) as T. inversion T as [l m c p E O X Q|l m c p E O X Q|M Q]; subst; rewrite <- Q in H; [|discriminate|].
  - destruct (IH _ _ A2 S2 H) as [K N]. cbn [p_keys] in K.
    assert (U : forall c' p', correlation V current (Eq V (Col V l) (Col V m)) c' p' -> c' = c /\ p' = p).
    { intros c' p' Co. destruct (CO c' p' Co) as (l' & m' & E' & O'). injection E' as <- <-. rewrite O in O'. injection O' as <- <-. split; reflexivity. }
    split.
    + intros x c' p' [<-|I] Co J.
      * destruct (U c' p' Co) as [-> ->]. apply key_mem in J. congruence.
      * apply (K x c' p' I Co). apply in_or_app. left. exact J.
    + intros i j x y c' p' I J Cx Cy. destruct i as [|i], j as [|j]; cbn [nth_error] in *; try reflexivity.
      * injection I as <-. destruct (U c' p' Cx) as [-> ->]. exfalso. apply (K y c p (nth_error_In _ _ J) Cy). apply in_or_app. right. left. reflexivity.
      * injection J as <-. destruct (U c' p' Cy) as [-> ->]. exfalso. apply (K x c p (nth_error_In _ _ I) Cx). apply in_or_app. right. left. reflexivity.
      * f_equal. exact (N i j x y c' p' I J Cx Cy).
  - assert (NC : forall c p, ~ correlation V current e c p).
    { intros c p Co. destruct (CO c p Co) as (l & m & E & O). rewrite (M l m E) in O. discriminate. }
    destruct (IH _ _ A2 S2 H) as [K N].
    assert (EK : p_keys V (other V current parents e s) = p_keys V s) by (unfold other; destruct (parent_columns V current parents e); reflexivity).
    rewrite EK in K. split.
    + intros x c p [<-|I] Co; [exfalso; exact (NC c p Co)|exact (K x c p I Co)].
    + intros i j x y c p I J Cx Cy. destruct i as [|i], j as [|j]; cbn [nth_error] in *; try reflexivity.
      * injection I as <-. exfalso. exact (NC c p Cx).
      * injection J as <-. exfalso. exact (NC c p Cy).
      * f_equal. exact (N i j x y c p I J Cx Cy).
Qed.
(** Equalities only: nothing is left to check afterwards. *)
Lemma parse_no_interceptors : forall es s s', Forall atom es -> (forall e c, In e es -> In c (columns e) -> scoped c) ->
  only_equalities V current es -> p_interceptors V s = [] -> parse_all es s = Ok s' -> p_interceptors V s' = [].
Proof.
  induction es as [|e es IH]; intros s s' A S N K H; [injection H as <-; exact K|]. cbn [parse_all] in H.
  inversion A as [|? ? A1 A2]; subst.
  assert (N2 : only_equalities V current es) by (intros x I; apply N; right; exact I).
  assert (S2 : forall e c, In e es -> In c (columns e) -> scoped c) by (intros x c I; apply S; right; exact I).
  pose proof (parse_step e s A1) as T. inversion T as [l m c p E O X Q|l m c p E O X Q|M Q]; subst; rewrite <- Q in H.
  - eapply IH; [exact A2|exact S2|exact N2| |exact H]. exact K.
  - discriminate.
  - eapply IH; [exact A2|exact S2|exact N2| |exact H].
    unfold other. destruct (parent_columns V current parents e) as [|d ds] eqn:P; cbn [p_interceptors]; [exact K|]. exfalso.
    assert (Id : In d (parent_columns V current parents e)) by (rewrite P; left; reflexivity).
    apply parent_columns_spec in Id as [Id Pd].
    destruct (N e (or_introl eq_refl)) as [(c & p & Co)|Ow].
    + pose proof Co as [Sh _]. assert (exists l m, e = Eq V (Col V l) (Col V m)) as (l & m & ->) by (destruct Sh as [->| ->]; eauto).
      apply orient_correlation in Co; [| |]; try (apply (S _ _ (or_introl eq_refl)); cbn [Subq_Spec.columns app In]; tauto).
      rewrite (M l m eq_refl) in Co. discriminate.
    + specialize (Ow d Id). apply inner_own in Ow. rewrite (inner_or_parent d (S e d (or_introl eq_refl) Id)), Ow in Pd. discriminate.
Qed.
End P.

(** *** Groups of the rows with one key *)
Section Groups.
Variables K G R : Type.
Variable sk : K -> K -> bool.
Variable sg : G -> G -> bool.
Hypothesis Ek : equivalence_b sk.
Definition both (a b : K * G) : bool := sk (fst a) (fst b) && sg (snd a) (snd b).
Lemma sk_left : forall a b c, sk a b = true -> sk a c = sk b c.
Proof.
  intros a b c H. destruct Ek as (r & s & t). destruct (sk a c) eqn:A, (sk b c) eqn:B; try reflexivity; [rewrite s in H; rewrite (t b a c H A) in B|rewrite (t a b c H B) in A]; discriminate.
Qed.
Lemma sk_right : forall a b c, sk a b = true -> sk c a = sk c b.
Proof. intros a b c H. destruct Ek as (r & s & t). rewrite (s c a), (s c b). apply sk_left. exact H. Qed.
Lemma keys_of_class : forall k0 (rows : list ((K * G) * R)) seen,
  map snd (filter (fun kg => sk (fst kg) k0) (keys_from both seen rows))
  = keys_from sg (map snd (filter (fun kg => sk (fst kg) k0) seen))
      (map (fun x => (snd (fst x), snd x)) (filter (fun x => sk (fst (fst x)) k0) rows)).
Proof.
  intros k0. induction rows as [|[[k g] r] rows IH]; intros seen; [reflexivity|]. cbn [keys_from filter fst snd].
  destruct (sk k k0) eqn:E.
  - cbn [map keys_from fst snd].
    assert (X : existsb (fun k' => both k' (k, g)) seen = existsb (fun g' => sg g' g) (map snd (filter (fun kg => sk (fst kg) k0) seen))).
    { clear -E Ek. induction seen as [|[k' g'] seen IH]; [reflexivity|]. cbn [existsb filter]. unfold both at 1. cbn [fst snd].
      rewrite (sk_right k k0 k' E). destruct (sk k' k0); cbn [andb map existsb snd orb]; rewrite IH; reflexivity. }
    rewrite X. destruct (existsb _ (map snd _)); [apply IH|]. cbn [filter fst]. rewrite E. cbn [map snd]. f_equal. rewrite IH. f_equal.
    rewrite filter_app, map_app. cbn [filter fst]. rewrite E. reflexivity.
  - destruct (existsb _ seen); [apply IH|]. cbn [filter fst]. rewrite E. rewrite IH. f_equal. rewrite filter_app, map_app. cbn [filter fst]. rewrite E.
    cbn [map]. apply app_nil_r.
Qed.
Lemma members_of_class : forall k0 k g (rows : list ((K * G) * R)), sk k k0 = true ->
  members both rows (k, g) = members sg (map (fun x => (snd (fst x), snd x)) (filter (fun x => sk (fst (fst x)) k0) rows)) g.
Proof.
  intros k0 k g rows E. unfold members. induction rows as [|[[k' g'] r] rows IH]; [reflexivity|]. cbn [filter fst snd].
  unfold both at 1. cbn [fst snd]. rewrite (sk_left k k0 k' E). destruct Ek as (rf & sy & tr). rewrite (sy k0 k').
  destruct (sk k' k0); cbn [andb map filter fst snd]; [|exact IH]. destruct (sg g g'); cbn [map snd]; rewrite IH; reflexivity.
Qed.
End Groups.

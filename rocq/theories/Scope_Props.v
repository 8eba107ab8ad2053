(** C179, C180: columns of joined tables. *)
From Coq Require Import Lia.
From Verif Require Import Base PyVal Joins_Syntax Joins_Spec Joins_Model Joins_Proofs Joins_Accept Scope_Model Scope_Spec Scope_Proofs.
Open Scope nat_scope.

Definition of_join (cmpv : cmp -> val -> val -> bool) (j : join) (x : jtable) : Prop :=
  n_name x = jtab j /\ parse_on cmpv (jtab j) (Plan [] [] []) (jon j) = Ok (n_plan x).

Lemma join_tables_ok : forall cmpv js, (forall j a, In j js -> In a (jon j) -> qualified a) -> (forall j, In j js -> single_keys j) ->
  exists tabs, join_tables cmpv js = Ok tabs.
Proof.
  induction js as [|j js IH]; intros Hq Hk; cbn [join_tables]; [eauto|].
  destruct (@parse_on_accepts cmpv (jtab j) (jon j) (Plan [] [] [])) as (pl & ->).
  - intros a Ha. eapply Hq; [now left|exact Ha].
  - cbn. apply Hk. now left.
  - destruct IH as (tabs & ->); [intros j' a Hj; apply Hq; now right|intros j' Hj; apply Hk; now right|]. eauto.
Qed.
Lemma join_tables_rel : forall cmpv js tabs, join_tables cmpv js = Ok tabs -> Forall2 (of_join cmpv) js tabs.
Proof.
  induction js as [|j js IH]; intros tabs H; cbn [join_tables] in H; [injection H as <-; constructor|].
  destruct (parse_on _ _ _ _) as [pl|] eqn:E; [|discriminate]. destruct (join_tables cmpv js) as [ts|]; [|discriminate].
  injection H as <-. constructor; [now split|now apply IH].
Qed.
Lemma rel_right : forall cmpv js tabs x, Forall2 (of_join cmpv) js tabs -> In x tabs -> exists j, In j js /\ of_join cmpv j x.
Proof.
  intros cmpv js tabs x H. induction H as [|j y js tabs Hj H IH]; intros Hi; [destruct Hi|].
  destruct Hi as [<-|Hi]; [exists j; split; [now left|exact Hj]|]. destruct (IH Hi) as (j' & A & B). exists j'. split; [now right|exact B].
Qed.
Lemma rel_names : forall cmpv js tabs, Forall2 (of_join cmpv) js tabs -> names tabs = map jtab js.
Proof. intros cmpv js tabs H. induction H as [|j y js tabs [Hj _] H IH]; [reflexivity|]. unfold names in *. cbn [map]. now rewrite Hj, IH. Qed.
Lemma rel_lift : forall cmpv js tabs l, Forall2 (of_join cmpv) js tabs -> incl l tabs -> exists jl, Forall2 (of_join cmpv) jl l /\ incl jl js.
Proof.
  intros cmpv js tabs l H. induction l as [|x l IH]; intros Hi; [exists []; split; [constructor|intros j []]|].
  destruct (rel_right _ _ _ x H (Hi x (or_introl eq_refl))) as (j & A & B). destruct IH as (jl & C & D); [intros y Hy; apply Hi; now right|].
  exists (j :: jl). split; [now constructor|]. intros j' [<-|Hj]; auto.
Qed.

(** The place of a table in the list of joins. *)
Fixpoint rank (l : list join) (tb : text) : nat :=
  match l with [] => 0 | j :: r => if text_eqb tb (jtab j) then 0 else S (rank r tb) end.
Lemma rank_lt : forall l tb, In tb (map jtab l) -> rank l tb < length l.
Proof.
  induction l as [|j l IH]; intros tb H; [destruct H|]. cbn [rank length]. destruct (text_eqb tb (jtab j)) eqn:E; [lia|].
  destruct H as [<-|H]; [now rewrite text_eqb_refl in E|]. specialize (IH tb H). lia.
Qed.
Lemma scoped_names : forall js ts, scoped ts js -> NoDup (map jtab js) /\ forall x, In x (map jtab js) -> ~ In x ts.
Proof.
  induction js as [|j js IH]; intros ts H; [split; [constructor|intros x []]|]. cbn [scoped] in H. destruct H as (H1 & _ & H3).
  destruct (IH _ H3) as [A B]. cbn [map]. split.
  - constructor; [|exact A]. intros Hi. apply (B _ Hi). now left.
  - intros x [<-|Hx]; [exact H1|]. intros Ht. apply (B x Hx). now right.
Qed.
Lemma scoped_rank : forall js ts j tb, scoped ts js -> In j js -> on_reads j tb -> tb <> jtab j ->
  In tb ts \/ (In tb (map jtab js) /\ rank js tb < rank js (jtab j)).
Proof.
  induction js as [|j0 js IH]; intros ts j tb H Hj Hr Hn; [destruct Hj|]. cbn [scoped] in H. destruct H as (H1 & H2 & H3).
  destruct Hj as [<-|Hj].
  - destruct Hr as (a & c & Ha & Hc & Ec). destruct (H2 a c Ha Hc) as (tb' & E & Hi). assert (tb' = tb) by congruence. subst tb'.
    destruct Hi as [Hi|Hi]; [congruence|now left].
  - destruct (scoped_names _ _ H3) as [Nd Hd].
    assert (Hne : text_eqb (jtab j) (jtab j0) = false).
    { apply text_eqb_neq. intros E. apply (Hd (jtab j)); [now apply in_map|left; auto]. }
    destruct (IH _ j tb H3 Hj Hr Hn) as [[E|Hi]|(Hi & Hlt)].
    + right. split; [left; exact E|]. cbn [rank]. rewrite <- E, text_eqb_refl, Hne. lia.
    + now left.
    + right. split; [now right|]. cbn [rank]. rewrite Hne. destruct (text_eqb tb (jtab j0)); lia.
Qed.

Lemma fold_left_rev_right' : forall A B (f : A -> B -> A) l i, fold_left f (rev l) i = fold_right (fun x y => f y x) i l.
Proof. intros A B f l i. rewrite <- (rev_involutive l) at 2. now rewrite fold_left_rev_right. Qed.

Lemma flat_singletons : forall A B (f : A -> B) l, flat_map (fun x => [f x]) l = map f l.
Proof. intros A B f l. induction l as [|x l IH]; [reflexivity|]. cbn [flat_map map app]. now rewrite IH. Qed.

(** C179: the compiled column of an expression over joined tables has, for every row of the FROM table, the values that the expression has
    on the combinations given by the LEFT JOINs of the tables it needs. *)
Theorem join_columns_read : forall cmpv d p js e ord fuel, eq_symmetric cmpv -> some_order ord -> scoped [p] js ->
  (forall j, In j js -> plain_on j) -> (forall j a, In j js -> In a (jon j) -> right_side_plain p (jtab j) a) ->
  (forall c tb, In c (ocols e) -> ctab c = Some tb -> In tb (p :: map jtab js)) -> length js < fuel ->
  exists column ts, compile_column_of cmpv p ord js fuel e = Some (Ok column) /\ joining_order p js e ts /\
    forall r, eval cmpv d [Some r] column = map (fun env => oval p env e) (joined_rows cmpv p d ts r).
Proof.
  intros cmpv d p js e ord fuel Hs Ho Hsc Hpl Hrs He Hf.
  assert (Hq := scoped_qualified _ _ Hsc). destruct (scoped_names _ _ Hsc) as [Nj Hpj].
  destruct (@join_tables_ok cmpv js Hq (fun j Hj => proj1 (Hpl j Hj))) as (tabs & Et).
  unfold compile_column_of. rewrite Et. apply join_tables_rel in Et. assert (Hn := rel_names _ _ _ Et).
  assert (Hp : ~ In p (names tabs)) by (rewrite Hn; intros Hi; apply (Hpj p Hi); now left).
  (* what a table refers to *)
  assert (Href : forall j x, In j js -> of_join cmpv j x -> forall tb, In tb (refs p x) <-> on_reads j tb /\ tb <> p /\ tb <> jtab j).
  { intros j x Hj [A B] tb. destruct x as [n pl]. cbn [n_name n_plan] in *. subst n.
    apply (refs_on cmpv p j); [|intros a Ha; now apply Hrs|exact B]. intros a Ha. split; [exact (proj2 (Hpl j Hj) a Ha)|exact (Hq j a Hj Ha)]. }
  assert (Hdown : forall x tb, In x tabs -> In tb (refs p x) -> In tb (names tabs) /\ rank js tb < rank js (n_name x)).
  { intros x tb Hx Ht. destruct (rel_right _ _ _ x Et Hx) as (j & Hj & Rj). apply (Href j x Hj Rj) in Ht. destruct Ht as (A & B & C).
    rewrite Hn. destruct Rj as [-> _]. destruct (scoped_rank _ _ j tb Hsc Hj A C) as [[D|[]]|D]; [congruence|exact D]. }
  (* the start *)
  assert (Hstart : incl (ord (other_tables p (ocolumns e))) (names tabs)).
  { intros tb Ht. apply (proj1 (proj2 (Ho _) _)) in Ht. apply in_other in Ht. destruct Ht as (c & Hc & Ec & Hne). rewrite ocolumns_ocols in Hc.
    destruct (He c tb Hc Ec) as [D|D]; [congruence|]. rewrite Hn. exact D. }
  destruct (@find_tables_some tabs CompileError _ Hstart) as (cur & Ec).
  unfold compile_value. rewrite Ec. apply find_tables_ok in Ec. destruct Ec as [Ecn Eci].
  destruct (@column_tables_ends p ord Ho tabs (rank js) Hdown (length js) fuel cur []) as (l & El); [lia|exact Eci| |].
  { intros x Hx. apply rank_lt. rewrite <- Hn. apply in_map, Eci, Hx. }
  rewrite El.
  assert (Hcur : NoDup (names cur)) by (rewrite Ecn; apply Ho).
  destruct (@column_tables_sound p ord Ho tabs fuel cur [] l Eci) as (Li & Ln & Lb & Lc);
    [intros x []|exact Hcur|constructor|intros l1 x l2 tb E; destruct l1; discriminate|exact El|].
  assert (Lp : ~ In p (names l)).
  { intros Hi. apply Hp. unfold names in *. apply in_map_iff in Hi. destruct Hi as (x & <- & Hx). apply in_map, Li, Hx. }
  (* where the columns of the tables are found *)
  assert (Hcl : closed p l).
  { intros l1 x l2 E. assert (Hx : In x tabs) by (apply Li; rewrite E; apply in_elt).
    destruct (rel_right _ _ _ x Et Hx) as (j & Hj & Rj). pose proof Rj as [Nx Px].
    assert (Hcq : forall a, In a (jon j) -> on_clean (jtab j) a /\ qualified a).
    { intros a Ha. split; [exact (proj2 (Hpl j Hj) a Ha)|exact (Hq j a Hj Ha)]. }
    destruct (@parse_on_plan cmpv p (jtab j) (jon j) [] (Plan [] [] []) (n_plan x) Hcq) as (P1 & P2 & P3);
      [split; [|split]; cbn; intros; contradiction|exact Px|]. cbn [app] in P1, P2, P3.
    split.
    - intros k c Hk Hc. rewrite <- ocolumns_ocols in Hc. destruct (P1 k c Hk Hc) as (A & a & Ha & Ha').
      intros tb Ect.
      destruct (text_eqb tb p) eqn:Ep; [apply text_eqb_spec in Ep; now left|]. right.
      destruct (Lb l1 x l2 tb E) as [[]|Hi]; [|exact Hi]. apply (Href j x Hj Rj). split; [exists a, c; auto|]. split; [now apply text_eqb_neq|congruence].
    - intros a c Ha Hc. assert (Ha' := P2 a Ha). intros tb Ect. unfold names. cbn [map]. destruct (text_eqb tb p) eqn:Ep; [apply text_eqb_spec in Ep; now left|]. right.
      destruct (text_eqb tb (jtab j)) eqn:Ej; [apply text_eqb_spec in Ej; left; congruence|]. right.
      destruct (Lb l1 x l2 tb E) as [[]|Hi]; [|exact Hi]. apply (Href j x Hj Rj). split; [exists a, c; auto|]. split; [now apply text_eqb_neq|now apply text_eqb_neq]. }
  assert (Hke : forall c, In c (ocols e) -> known p l c).
  { intros c Hc tb E.
    destruct (text_eqb tb p) eqn:Ep; [apply text_eqb_spec in Ep; now left|]. right. apply Lc. left. rewrite Ecn. apply (proj2 (Ho _)).
    apply in_other. exists c. rewrite ocolumns_ocols. split; [exact Hc|]. split; [exact E|now apply text_eqb_neq]. }
  destruct (@comp_op_look p [] l e Ln Lp Hke) as (o & Eo & Heo). cbn [app length] in Eo. change (Z.of_nat 0 - 1)%Z with (-1)%Z in Eo. rewrite Eo.
  destruct (@wraps_eval p cmpv d l [] (CVal o) (fun env => [oval p env e]) Ln Lp Hcl) as (column & Ew & Hw).
  { intros env Henv. cbn [eval]. now rewrite (Heo env Henv). }
  cbn [app length] in Ew. rewrite Ew.
  destruct (rel_lift _ _ _ l Et Li) as (jl & Rl & Ij). exists column, (rev jl). split; [reflexivity|]. split.
  - (* the order *)
    assert (Enj := rel_names _ _ _ Rl).
    assert (Hwithin : forall x, In x l -> needed p js e (n_name x)).
    { apply (@column_tables_within p ord Ho tabs (needed p js e)) with (f := fuel) (cur := cur) (acc := []) (l := l);
        [|exact Eci| |intros x []|exact El].
      - intros x tb Hx Px Ht. destruct (rel_right _ _ _ x Et Hx) as (j & Hj & Rj). apply (Href j x Hj Rj) in Ht. destruct Ht as (A & B & C).
        destruct Rj as [Nx _]. rewrite Nx in Px. eapply needed_on; eauto.
      - intros x Hx. assert (Hi : In (n_name x) (names cur)) by (now apply in_map). rewrite Ecn in Hi. apply (proj1 (proj2 (Ho _) _)) in Hi.
        apply in_other in Hi. destruct Hi as (c & Hc & E & Hne). rewrite ocolumns_ocols in Hc. eapply needed_read; eauto. }
    split; [|split; [|split]].
    + rewrite map_rev. apply NoDup_rev. rewrite <- Enj. exact Ln.
    + intros j Hj. apply Ij. now apply in_rev.
    + intros tb. rewrite map_rev, <- in_rev, <- Enj. split.
      * intros Hi. unfold names in Hi. apply in_map_iff in Hi. destruct Hi as (x & <- & Hx). now apply Hwithin.
      * intros Hnd. induction Hnd as [c tb Hc E Hne|j tb Hj Hnd IH Hr Hne Hnj].
        -- destruct (Hke c Hc tb E) as [D|D]; congruence.
        -- unfold names in IH. apply in_map_iff in IH. destruct IH as (x & Ex & Hx). destruct (in_split _ _ Hx) as (l1 & l2 & Esp).
           destruct (rel_right _ _ _ x Et (Li x Hx)) as (j' & Hj' & Rj').
           assert (j' = j).
           { destruct Rj' as [Nx _]. assert (G : forall l : list join, NoDup (map jtab l) -> In j' l -> In j l -> jtab j' = jtab j -> j' = j).
             { clear. induction l as [|z l IHl]; intros Nd Ha Hb Eab; [destruct Ha|]. cbn [map] in Nd. apply NoDup_cons_iff in Nd. destruct Nd as [N1 N2].
               destruct Ha as [<-|Ha], Hb as [<-|Hb]; [reflexivity| | |now apply IHl].
               - exfalso. apply N1. rewrite Eab. now apply in_map.
               - exfalso. apply N1. rewrite <- Eab. now apply in_map. }
             apply (G js Nj Hj' Hj). congruence. }
           subst j'. destruct (Lb l1 x l2 tb Esp) as [[]|Hi]; [apply (Href j x Hj Rj'); auto|]. rewrite Esp. unfold names in *. rewrite map_app, in_app_iff. cbn [map]. auto.
           right. now right.
    + intros l1 j l2 E tb Hr. assert (E' : jl = rev l2 ++ j :: rev l1).
      { rewrite <- (rev_involutive jl), E, rev_app_distr. cbn [rev]. now rewrite <- app_assoc. }
      rewrite E' in Rl. apply Forall2_app_inv_l in Rl. destruct Rl as (t1 & t2 & R1 & R2 & El2). inversion R2 as [|j0 x js0 t3 Rj R3 Ej0 Et2]. subst.
      destruct (text_eqb tb p) eqn:Ep; [apply text_eqb_spec in Ep; now left|]. right.
      destruct (text_eqb tb (jtab j)) eqn:Ej; [apply text_eqb_spec in Ej; now left|]. right.
      assert (Hj : In j js) by (apply Ij; apply in_elt).
      destruct (Lb t1 x t3 tb eq_refl) as [[]|Hi]; [apply (Href j x Hj Rj); split; [exact Hr|split; now apply text_eqb_neq]|].
      rewrite (rel_names _ _ _ R3), map_rev, <- in_rev in Hi. exact Hi.
  - (* the values *)
    intros r. assert (Henv : env_of p [] [(p, Some r)]) by reflexivity. assert (Hwr := Hw _ Henv). cbn [map snd] in Hwr. rewrite Hwr.
    unfold joined_rows. rewrite fold_left_rev_right'.
    assert (Hruns : forall ll jj es, Forall2 (of_join cmpv) jj ll -> incl jj js ->
              runs p cmpv d ll es = fold_right (fun j es => left_join cmpv p d (jtab j) (jon j) es) es jj).
    { intros ll jj es H. induction H as [|j x jj ll [Nx Px] H IH]; intros Hi; [reflexivity|]. cbn [runs fold_right].
      change (fold_right (fun x es0 => run_join cmpv d p (n_name x) (n_plan x) es0) es ll) with (runs p cmpv d ll es).
      rewrite IH by (intros y Hy; apply Hi; now right). rewrite Nx. apply run_join_left; [exact Hs| |exact Px].
      assert (Hj : In j js) by (apply Hi; now left). intros a Ha. split; [exact (proj2 (Hpl j Hj) a Ha)|exact (Hq j a Hj Ha)]. }
    rewrite (Hruns l jl _ Rl Ij). apply flat_singletons.
Qed.
Print Assumptions join_columns_read.

From Coq Require Import Permutation.
From Verif Require Import Scope_Order.

(** C180: Python walks sets in an order that changes from run to run; the values of a column do not. *)
Lemma join_same : forall (l : list join) a b, NoDup (map jtab l) -> In a l -> In b l -> jtab a = jtab b -> a = b.
Proof.
  induction l as [|z l IH]; intros a b Nd Ha Hb E; [destruct Ha|]. cbn [map] in Nd. apply NoDup_cons_iff in Nd. destruct Nd as [N1 N2].
  destruct Ha as [<-|Ha], Hb as [<-|Hb]; [reflexivity| | |now apply IH].
  - exfalso. apply N1. rewrite E. now apply in_map.
  - exfalso. apply N1. rewrite <- E. now apply in_map.
Qed.
Lemma orders_perm : forall p js e ts ts', NoDup (map jtab js) -> joining_order p js e ts -> joining_order p js e ts' -> Permutation ts ts'.
Proof.
  intros p js e ts ts' Nj (N1 & I1 & M1 & _) (N2 & I2 & M2 & _). apply NoDup_Permutation; [eapply NoDup_map_inv; eauto..|]. intros j. split; intros Hj.
  - assert (Hn : In (jtab j) (map jtab ts')) by (apply M2, M1, in_map, Hj). apply in_map_iff in Hn. destruct Hn as (k & E & Hk).
    rewrite <- (join_same js k j Nj (I2 k Hk) (I1 j Hj) E). exact Hk.
  - assert (Hn : In (jtab j) (map jtab ts)) by (apply M1, M2, in_map, Hj). apply in_map_iff in Hn. destruct Hn as (k & E & Hk).
    rewrite <- (join_same js k j Nj (I1 k Hk) (I2 j Hj) E). exact Hk.
Qed.
Lemma order_ordered : forall p js e ts, (forall j a, In j js -> In a (jon j) -> qualified a) -> joining_order p js e ts -> ordered [p] ts.
Proof.
  intros p js e ts Hq (_ & I & _ & O) l1 j l2 E a c Ha Hc. assert (Hj : In j js) by (apply I; rewrite E; apply in_elt).
  assert (Hn := Hq j a Hj Ha c Hc). destruct (ctab c) as [tb|] eqn:Ec; [|congruence]. exists tb. split; [reflexivity|].
  destruct (O l1 j l2 E tb) as [->|[Hi|Hi]]; [exists a, c; auto|left; now left|auto..].
Qed.

Theorem join_columns_any_order : forall cmpv d p js e ord ord' fuel, eq_symmetric cmpv -> some_order ord -> some_order ord' -> scoped [p] js ->
  (forall j, In j js -> plain_on j) -> (forall j a, In j js -> In a (jon j) -> right_side_plain p (jtab j) a) ->
  (forall c tb, In c (ocols e) -> ctab c = Some tb -> In tb (p :: map jtab js)) -> length js < fuel ->
  exists column column', compile_column_of cmpv p ord js fuel e = Some (Ok column) /\ compile_column_of cmpv p ord' js fuel e = Some (Ok column') /\
    forall r, Permutation (eval cmpv d [Some r] column) (eval cmpv d [Some r] column').
Proof.
  intros cmpv d p js e ord ord' fuel Hs Ho Ho' Hsc Hpl Hrs He Hf.
  destruct (@join_columns_read cmpv d p js e ord fuel Hs Ho Hsc Hpl Hrs He Hf) as (c & ts & Ec & Jo & Ev).
  destruct (@join_columns_read cmpv d p js e ord' fuel Hs Ho' Hsc Hpl Hrs He Hf) as (c' & ts' & Ec' & Jo' & Ev').
  exists c, c'. split; [exact Ec|]. split; [exact Ec'|]. intros r. rewrite Ev, Ev'.
  destruct (scoped_names _ _ Hsc) as [Nj Hpj]. assert (Hq := scoped_qualified _ _ Hsc).
  apply same_rows_values. apply (@joined_orders cmpv p d ts' ts [p] [[(p, Some r)]]).
  - exact (orders_perm p js e ts' ts Nj Jo' Jo).
  - apply Jo'.
  - intros j Hj. apply Hpj. apply in_map. now apply Jo'.
  - exact (order_ordered p js e ts' Hq Jo').
  - exact (order_ordered p js e ts Hq Jo).
Qed.
Print Assumptions join_columns_any_order.

(** C181: joins whose ON conditions go round in a circle never give a column. *)
Theorem circular_joins_refused : forall cmpv p js e ord (path : nat -> join), some_order ord -> NoDup (map jtab js) -> ~ In p (map jtab js) ->
  (forall j a, In j js -> In a (jon j) -> qualified a) -> (forall j, In j js -> plain_on j) ->
  (forall j a, In j js -> In a (jon j) -> right_side_plain p (jtab j) a) ->
  (forall i, In (path i) js /\ on_reads (path i) (jtab (path (S i))) /\ jtab (path (S i)) <> jtab (path i)) ->
  needed p js e (jtab (path 0)) ->
  forall fuel column, compile_column_of cmpv p ord js fuel e <> Some (Ok column).
Proof.
  intros cmpv p js e ord path Ho Nj Hp Hq Hpl Hrs Hpath Hneed fuel column.
  destruct (@join_tables_ok cmpv js Hq (fun j Hj => proj1 (Hpl j Hj))) as (tabs & Et).
  unfold compile_column_of. rewrite Et. apply join_tables_rel in Et. assert (Hn := rel_names _ _ _ Et).
  assert (Href : forall j x, In j js -> of_join cmpv j x -> forall tb, In tb (refs p x) <-> on_reads j tb /\ tb <> p /\ tb <> jtab j).
  { intros j x Hj [A B] tb. destruct x as [n pl]. cbn [n_name n_plan] in *. subst n.
    apply (refs_on cmpv p j); [|intros a Ha; now apply Hrs|exact B]. intros a Ha. split; [exact (proj2 (Hpl j Hj) a Ha)|exact (Hq j a Hj Ha)]. }
  (* a path that starts at a table read by the expression *)
  assert (Hstart : forall tb, needed p js e tb -> forall q : nat -> join, jtab (q 0) = tb ->
             (forall i, In (q i) js /\ on_reads (q i) (jtab (q (S i))) /\ jtab (q (S i)) <> jtab (q i)) ->
             exists q', (forall i, In (q' i) js /\ on_reads (q' i) (jtab (q' (S i))) /\ jtab (q' (S i)) <> jtab (q' i)) /\
                        In (jtab (q' 0)) (other_tables p (ocols e))).
  { intros tb H. induction H as [c tb Hc E Hne|j tb Hj H IH Hr Hne Hnj]; intros q E0 Hqp.
    - exists q. split; [exact Hqp|]. rewrite E0. apply in_other. eauto.
    - apply (IH (fun i => match i with 0 => j | S k => q k end) eq_refl). intros [|i]; [|apply Hqp]. rewrite E0. auto. }
  destruct (Hstart _ Hneed path eq_refl Hpath) as (q & Hqp & Hq0). clear Hneed Hstart Hpath path.
  (* the tables of the path *)
  assert (Hx : forall i, exists x, In x tabs /\ of_join cmpv (q i) x).
  { intros i. destruct (Hqp i) as (Hi & _). clear - Et Hi. induction Et as [|j y js tabs Hj Et IH]; [destruct Hi|].
    destruct Hi as [->|Hi]; [exists y; split; [now left|exact Hj]|]. destruct (IH Hi) as (x & A & B). exists x. split; [now right|exact B]. }
  assert (Hfind : forall i x, In x tabs -> of_join cmpv (q i) x -> find_table (jtab (q i)) tabs = Some x).
  { intros i x Hi [A B]. destruct (find_table_some (jtab (q i)) tabs) as (y & Ey); [unfold names; rewrite <- A; now apply in_map|].
    rewrite Ey. f_equal. destruct (find_table_in _ _ Ey) as [C D].
    destruct (rel_right _ _ _ x Et Hi) as (jx & Hjx & [E1 F1]). destruct (rel_right _ _ _ y Et C) as (jy & Hjy & [E2 F2]).
    assert (jx = jy) by (apply (join_same js); auto; congruence). subst jy. destruct x, y. cbn in *. congruence. }
  set (path := fun i => match find_table (jtab (q i)) tabs with Some x => x | None => JTab [] (Plan [] [] []) end).
  assert (Hpi : forall i, In (path i) tabs /\ of_join cmpv (q i) (path i)).
  { intros i. destruct (Hx i) as (x & A & B). unfold path. rewrite (Hfind i x A B). auto. }
  unfold compile_value.
  destruct (find_tables tabs CompileError (ord (other_tables p (ocolumns e)))) as [cur|] eqn:Ec; [|discriminate].
  apply find_tables_ok in Ec. destruct Ec as [Ecn Eci].
  destruct (column_tables p ord tabs fuel cur []) as [[l|]|] eqn:El; [|discriminate..]. exfalso.
  revert El. apply (@column_tables_loops p ord Ho tabs path) with (i := 0).
  - intros i. apply Hpi.
  - rewrite Hn. exact Nj.
  - intros i. destruct (Hpi i) as [A B]. destruct (Hpi (S i)) as [C [D _]]. rewrite D. destruct (Hqp i) as (Hi & Hr & Hne).
    apply (Href (q i) (path i) Hi B). split; [exact Hr|]. split; [|exact Hne]. intros E. apply Hp. rewrite <- E. apply in_map. apply Hqp.
  - exact Eci.
  - assert (Hi : In (jtab (q 0)) (names cur)) by (rewrite Ecn; apply (proj2 (Ho _)); rewrite ocolumns_ocols; exact Hq0).
    unfold names in Hi. apply in_map_iff in Hi. destruct Hi as (y & Ey & Hy).
    replace (path 0) with y; [exact Hy|]. unfold path. symmetry. assert (Hyt := Eci y Hy). 
    destruct (rel_right _ _ _ y Et Hyt) as (j & Hj & Rj). assert (j = q 0) by (apply (join_same js); auto; [apply Hqp|destruct Rj; congruence]).
    subst j. now rewrite (Hfind 0 y Hyt Rj).
Qed.
Print Assumptions circular_joins_refused.

(** C182: an ON that ties two columns of the joined table by "=" never gives a column of that table. *)
Lemma parse_on_keeps : forall cmpv T l pl pl' k, parse_on cmpv T pl l = Ok pl' -> In k (o_keys pl) -> In k (o_keys pl').
Proof.
  induction l as [|a l IH]; intros pl pl' k H Hk; cbn [parse_on] in H; [injection H as <-; exact Hk|].
  destruct (parse_on1 cmpv T pl a) as [pl1|] eqn:E; [|discriminate]. apply (IH _ _ _ H). clear IH H. unfold parse_on1 in E.
  destruct a as [o x y|x f|cs f].
  - set (c := match o with CEq => _ | _ => _ end) in E. destruct c as [[cond value] keyable].
    destruct cond as [c|]; [|injection E as <-; exact Hk]. destruct (unqualified c); [discriminate|].
    destruct (ocolumns value); [injection E as <-; exact Hk|]. destruct keyable; [|injection E as <-; exact Hk].
    destruct (existsb _ _); [discriminate|]. injection E as <-. cbn [o_keys]. rewrite in_app_iff. now left.
  - destruct (col_of x) as [c|]; [|injection E as <-; exact Hk]. destruct (unqualified c); [discriminate|]. injection E as <-. exact Hk.
  - injection E as <-. exact Hk.
Qed.
Lemma own_key : forall cmpv T l pl pl' c c', In (ACmp CEq (OCol c) (OCol c')) l -> ctab c = Some T -> parse_on cmpv T pl l = Ok pl' ->
  In (cname c, OCol c') (o_keys pl').
Proof.
  induction l as [|a l IH]; intros pl pl' c c' Hi Hc H; [destruct Hi|]. cbn [parse_on] in H.
  destruct (parse_on1 cmpv T pl a) as [pl1|] eqn:E; [|discriminate]. destruct Hi as [->|Hi]; [|eapply IH; eauto].
  apply (parse_on_keeps _ _ _ _ _ _ H). unfold parse_on1 in E. cbn [col_of] in E. apply is_tab_true in Hc. rewrite Hc in E.
  apply is_tab_true in Hc. rewrite unq in E by congruence. cbn [ocolumns] in E. destruct (existsb _ _); [discriminate|]. injection E as <-.
  cbn [o_keys]. rewrite in_app_iff. right. now left.
Qed.

Theorem own_columns_tied_refused : forall cmpv p js j c c' e ord, some_order ord -> NoDup (map jtab js) -> In j js -> jtab j <> p ->
  In (ACmp CEq (OCol c) (OCol c')) (jon j) -> ctab c = Some (jtab j) -> ctab c' = Some (jtab j) ->
  (exists c0, In c0 (ocols e) /\ ctab c0 = Some (jtab j)) ->
  forall fuel column, compile_column_of cmpv p ord js fuel e <> Some (Ok column).
Proof.
  intros cmpv p js j c c' e ord Ho Nj Hj Hp Ha Hc Hc' (c0 & Hc0 & Ec0) fuel column. unfold compile_column_of.
  destruct (join_tables cmpv js) as [tabs|] eqn:Et; [|discriminate]. apply join_tables_rel in Et. assert (Hn := rel_names _ _ _ Et).
  assert (Hx : exists x, In x tabs /\ of_join cmpv j x).
  { clear - Et Hj. induction Et as [|j0 y js tabs H0 Et IH]; [destruct Hj|]. destruct Hj as [->|Hj]; [exists y; split; [now left|exact H0]|].
    destruct (IH Hj) as (x & A & B). exists x. split; [now right|exact B]. }
  destruct Hx as (x & Hx & [Nx Px]).
  assert (Hself : In (n_name x) (refs p x)).
  { unfold refs. apply in_other. exists c'. split; [|split; congruence]. unfold join_columns. rewrite in_app_iff. left. apply in_flat_map.
    exists (cname c, OCol c'). split; [exact (own_key _ _ _ _ _ _ _ Ha Hc Px)|]. now left. }
  unfold compile_value.
  destruct (find_tables tabs CompileError (ord (other_tables p (ocolumns e)))) as [cur|] eqn:Ec; [|discriminate].
  apply find_tables_ok in Ec. destruct Ec as [Ecn Eci].
  destruct (column_tables p ord tabs fuel cur []) as [[l|]|] eqn:El; [|discriminate..]. exfalso.
  revert El. refine (@column_tables_loops p ord Ho tabs (fun _ => x) _ _ _ fuel cur [] 0 Eci _ l); auto.
  - now rewrite Hn.
  - assert (Hi : In (jtab j) (names cur)).
    { rewrite Ecn. apply (proj2 (Ho _)). apply in_other. exists c0. rewrite ocolumns_ocols. auto. }
    unfold names in Hi. apply in_map_iff in Hi. destruct Hi as (y & Ey & Hy). replace x with y; [exact Hy|].
    destruct (rel_right _ _ _ x Et Hx) as (jx & Hjx & [E1 F1]). destruct (rel_right _ _ _ y Et (Eci y Hy)) as (jy & Hjy & [E2 F2]).
    assert (jx = jy) by (apply (join_same js); auto; congruence). subst jy. destruct x, y. cbn in *. congruence.
Qed.
Print Assumptions own_columns_tied_refused.

(** C183: a comparison in ON whose left side is computed and whose right side reads another joined table.  The compiler overlooks the right side: a
    column of the table alone fails to compile, and with the other table in the expression it depends on the order of a set whether the filter reads the
    other table or nothing. *)
Definition own (n : string) : text := t n.
Definition rs_joins : list join :=
  [Join (own "u") SLeft KNone [ACmp CEq (OCol (Col (Some (own "u")) (own "id"))) (OCol (Col (Some (own "p")) (own "id")))];
   Join (own "t") SLeft KNone [ACmp CEq (OCol (Col (Some (own "t")) (own "id"))) (OCol (Col (Some (own "p")) (own "id")));
                               ACmp CGt (OExpr [Col (Some (own "t")) (own "a")] (fun vs => hd VNone vs)) (OCol (Col (Some (own "u")) (own "b")))]].
Definition rs_value : operand := OExpr [Col (Some (own "t")) (own "a"); Col (Some (own "u")) (own "b")] (fun vs => hd VNone vs).
Definition once (l : list text) : list text := nodup (list_eq_dec N.eq_dec) l.
Lemma once_order : some_order once.
Proof. intros l. split; [apply NoDup_nodup|]. intros x. apply nodup_In. Qed.
Lemma rev_order : some_order (fun l => rev (once l)).
Proof. intros l. split; [apply NoDup_rev, NoDup_nodup|]. intros x. rewrite <- in_rev. apply nodup_In. Qed.

Definition gt (o : cmp) (a b : val) : bool :=
  match o, a, b with
  | CEq, VInt x, VInt y => Z.eqb x y
  | CGt, VInt x, VInt y => Z.ltb y x
  | _, _, _ => false
  end.
Definition rs_db : db := fun n =>
  if text_eqb n (own "t") then [[(own "id", VInt 1); (own "a", VInt 7)]]
  else if text_eqb n (own "u") then [[(own "id", VInt 1); (own "b", VInt 5)]] else [].
Definition rs_row : row := [(own "id", VInt 1)].

Theorem on_right_side_overlooked_refuted : scoped [own "p"] rs_joins /\
  (forall cmpv, compile_column_of cmpv (own "p") once rs_joins 3 (OCol (Col (Some (own "t")) (own "a"))) = Some (Err IndexError)) /\
  (exists c c', compile_column_of gt (own "p") once rs_joins 3 rs_value = Some (Ok c) /\
                compile_column_of gt (own "p") (fun l => rev (once l)) rs_joins 3 rs_value = Some (Ok c') /\
                eval gt rs_db [Some rs_row] c = [VInt 7] /\ eval gt rs_db [Some rs_row] c' = [VNone]).
Proof.
  split; [|split; [intros cmpv; reflexivity|]].
  - cbn [scoped rs_joins jtab jon map]. split; [intros [E|[]]; discriminate|]. split.
    + intros a c [<-|[]] [<-|[<-|[]]]; eexists; (split; [reflexivity|cbn; auto]).
    + split; [intros [E|[E|[]]]; discriminate|]. split; [|exact Logic.I].
      intros a c [<-|[<-|[]]] [<-|[<-|[]]]; eexists; (split; [reflexivity|cbn; auto]).
  - eexists. eexists. split; [reflexivity|]. split; [reflexivity|]. split; reflexivity.
Qed.
Print Assumptions on_right_side_overlooked_refuted.

(** The hypotheses of join_columns_read are met: FROM p LEFT JOIN u ON u.id = p.id LEFT JOIN t ON t.uid = u.id AND t.a > u.b, SELECT t.a, u.b *)
Definition ex_joins : list join :=
  [Join (own "u") SLeft KNone [ACmp CEq (OCol (Col (Some (own "u")) (own "id"))) (OCol (Col (Some (own "p")) (own "id")))];
   Join (own "t") SLeft KNone [ACmp CEq (OCol (Col (Some (own "t")) (own "id"))) (OCol (Col (Some (own "u")) (own "id")));
                               ACmp CGt (OCol (Col (Some (own "t")) (own "a"))) (OCol (Col (Some (own "u")) (own "b")))]].
Example ex_scope : scoped [own "p"] ex_joins /\ (forall j, In j ex_joins -> plain_on j) /\
  (forall j a, In j ex_joins -> In a (jon j) -> right_side_plain (own "p") (jtab j) a).
Proof.
  split; [|split].
  - cbn [scoped ex_joins jtab jon map]. split; [intros [E|[]]; discriminate|]. split.
    + intros a c [<-|[]] [<-|[<-|[]]]; eexists; (split; [reflexivity|cbn; auto]).
    + split; [intros [E|[E|[]]]; discriminate|]. split; [|exact Logic.I].
      intros a c [<-|[<-|[]]] [<-|[<-|[]]]; eexists; (split; [reflexivity|cbn; auto]).
  - intros j [<-|[<-|[]]]; (split; [unfold single_keys; cbn; repeat constructor; intros []|]);
      intros a H; repeat (destruct H as [<-|H]); try destruct H; cbn; try discriminate; auto.
  - intros j a [<-|[<-|[]]] H; repeat (destruct H as [<-|H]); try destruct H; exact Logic.I.
Qed.
Example ex_value : exists c, compile_column_of gt (own "p") once ex_joins 3 rs_value = Some (Ok c) /\ eval gt rs_db [Some rs_row] c = [VInt 7].
Proof. eexists. split; reflexivity. Qed.
(** ... and those of circular_joins_refused: t reads u, u reads t. *)
Definition circle : list join :=
  [Join (own "u") SLeft KNone [ACmp CEq (OCol (Col (Some (own "u")) (own "id"))) (OCol (Col (Some (own "t")) (own "id")))];
   Join (own "t") SLeft KNone [ACmp CEq (OCol (Col (Some (own "t")) (own "id"))) (OCol (Col (Some (own "u")) (own "id")))]].
Definition round_path (i : nat) : join := nth (if Nat.even i then 0 else 1) circle (Join [] SNone KNone []).
Example ex_circle : (forall i, In (round_path i) circle /\ on_reads (round_path i) (jtab (round_path (S i))) /\ jtab (round_path (S i)) <> jtab (round_path i)) /\
  (forall j, In j circle -> plain_on j) /\ needed (own "p") circle (OCol (Col (Some (own "t")) (own "a"))) (jtab (round_path 0)).
Proof.
  assert (Hu : forall i, Nat.even (S i) = negb (Nat.even i)) by (intros i; rewrite Nat.even_succ, <- Nat.negb_even; reflexivity).
  split; [|split].
  - intros i. unfold round_path. rewrite Hu. destruct (Nat.even i); cbn [negb nth circle jtab].
    + split; [now left|]. split; [|discriminate]. eexists. eexists. split; [left; reflexivity|]. split; [right; left; reflexivity|reflexivity].
    + split; [right; now left|]. split; [|discriminate]. eexists. eexists. split; [left; reflexivity|]. split; [right; left; reflexivity|reflexivity].
  - intros j [<-|[<-|[]]]; (split; [unfold single_keys; cbn; repeat constructor; intros []|]);
      intros a H; repeat (destruct H as [<-|H]); try destruct H; cbn; discriminate.
  - apply (needed_on (own "p") circle _ (nth 1 circle (Join [] SNone KNone []))); [right; now left| | |discriminate|discriminate].
    + eapply needed_read; [left; reflexivity|reflexivity|discriminate].
    + eexists. eexists. split; [left; reflexivity|]. split; [right; left; reflexivity|reflexivity].
Qed.
Example ex_circle_fails : compile_column_of gt (own "p") once circle 100 (OCol (Col (Some (own "t")) (own "a"))) = None.
Proof. reflexivity. Qed.

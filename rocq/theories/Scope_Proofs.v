From Coq Require Import Lia Permutation.
From Verif Require Import Base PyVal Joins_Syntax Joins_Spec Joins_Model Joins_Proofs Joins_Accept Scope_Model Scope_Spec.
Open Scope nat_scope.
Set Implicit Arguments.

Definition names (l : list jtable) : list text := map n_name l.
Definition refs (p : text) (x : jtable) : list text := other_tables p (join_columns (n_name x) (n_plan x)).

(** ** What a plan reads *)
Lemma in_other : forall p cs tb, In tb (other_tables p cs) <-> exists c, In c cs /\ ctab c = Some tb /\ tb <> p.
Proof.
  intros p cs tb. unfold other_tables. rewrite in_flat_map. split.
  - intros (c & Hc & H). exists c. destruct (ctab c) as [x|]; [|destruct H].
    destruct (text_eqb x p) eqn:E; [destruct H|]. destruct H as [<-|[]]. split; [exact Hc|]. split; [reflexivity|].
    intros ->. now rewrite text_eqb_refl in E.
  - intros (c & Hc & E & Hn). exists c. split; [exact Hc|]. rewrite E.
    destruct (text_eqb tb p) eqn:Ep; [apply text_eqb_spec in Ep; contradiction|]. now left.
Qed.

(** The atoms of a plan: where the columns of an ON go. *)
Definition plan_ok (p T : text) (on : list atom) (pl : on_plan) : Prop :=
  (forall k c, In k (o_keys pl) -> In c (ocolumns (snd k)) -> ctab c <> Some T /\ exists a, In a on /\ In c (acols a)) /\
  (forall a, In a (o_having pl) -> In a on) /\
  (forall a c, In a on -> In c (acols a) -> (exists k, In k (o_keys pl) /\ In c (ocolumns (snd k))) \/ ctab c = Some T \/ In a (o_having pl)).

Lemma ocolumns_ocols : forall o, ocolumns o = ocols o.
Proof. destruct o; reflexivity. Qed.

Lemma parse_on1_plan : forall cmpv p T pl a pl' on, on_clean T a -> qualified a -> plan_ok p T on pl ->
  parse_on1 cmpv T pl a = Ok pl' -> plan_ok p T (on ++ [a]) pl'.
Proof.
  intros cmpv p T pl a pl' on Hc Hq (H1 & H2 & H3) H.
  (* the three outcomes *)
  assert (Hh : pl' = Plan (o_keys pl) (o_query pl) (o_having pl ++ [a]) -> plan_ok p T (on ++ [a]) pl').
  { intros ->. unfold plan_ok. cbn [o_keys o_having]. split; [|split].
    - intros k c Hk Hi. destruct (H1 k c Hk Hi) as (A & b & B & C). split; [exact A|]. exists b. rewrite in_app_iff. auto.
    - intros b Hb. rewrite in_app_iff in *. destruct Hb as [Hb|Hb]; auto.
    - intros b c Hb Hi. rewrite in_app_iff in *. destruct Hb as [Hb|Hb]; [|right; right; now right].
      destruct (H3 b c Hb Hi) as [|[|]]; auto. }
  assert (Hqr : forall q, pl' = Plan (o_keys pl) q (o_having pl) -> (forall c, In c (acols a) -> ctab c = Some T) -> plan_ok p T (on ++ [a]) pl').
  { intros q -> Ho. unfold plan_ok. cbn [o_keys o_having]. split; [|split].
    - intros k c Hk Hi. destruct (H1 k c Hk Hi) as (A & b & B & C). split; [exact A|]. exists b. rewrite in_app_iff. auto.
    - intros b Hb. rewrite in_app_iff. auto.
    - intros b c Hb Hi. rewrite in_app_iff in *. destruct Hb as [Hb|[<-|[]]]; [|right; left; now apply Ho].
      destruct (H3 b c Hb Hi) as [|[|]]; auto. }
  assert (Hk : forall n v, pl' = Plan (o_keys pl ++ [(n, v)]) (o_query pl) (o_having pl) ->
             (forall c, In c (ocols v) -> ctab c <> Some T /\ In c (acols a)) ->
             (forall c, In c (acols a) -> In c (ocols v) \/ ctab c = Some T) -> plan_ok p T (on ++ [a]) pl').
  { intros n v -> Ho Ha. unfold plan_ok. cbn [o_keys o_having]. split; [|split].
    - intros k c Hk Hi. rewrite in_app_iff in Hk. destruct Hk as [Hk|[<-|[]]].
      + destruct (H1 k c Hk Hi) as (A & b & B & C). split; [exact A|]. exists b. rewrite in_app_iff. auto.
      + cbn [snd] in Hi. rewrite ocolumns_ocols in Hi. destruct (Ho c Hi). split; [assumption|]. exists a. rewrite in_app_iff. cbn. auto.
    - intros b Hb. rewrite in_app_iff. auto.
    - intros b c Hb Hi. rewrite in_app_iff in Hb. destruct Hb as [Hb|[<-|[]]].
      + destruct (H3 b c Hb Hi) as [(k & Hk & Hi')|[|]]; auto. left. exists k. rewrite in_app_iff. auto.
      + destruct (Ha c Hi) as [Hi'|]; [|auto]. left. exists (n, v). rewrite in_app_iff. cbn. rewrite ocolumns_ocols. auto. }
  unfold parse_on1 in H. destruct a as [o l r|l f|cs f].
  - destruct o.
    + (* = *)
      destruct l as [cl|csl fl]; cbn [col_of] in H.
      * destruct (is_tab T cl) eqn:El.
        -- cbn [on_clean] in Hc. apply is_tab_true in El.
           rewrite (unq _ (Hq cl ltac:(cbn [acols ocols]; left; reflexivity))) in H.
           destruct (ocolumns r) as [|c0 cs0] eqn:Er.
           ++ injection H as <-. eapply Hqr; [reflexivity|]. cbn [acols ocols]. rewrite <- ocolumns_ocols, Er. intros c [<-|[]]. exact El.
           ++ destruct (existsb _ _); [discriminate|]. injection H as <-. eapply Hk; [reflexivity| |].
              ** intros c Hi. split; [|cbn [acols ocols]; right; exact Hi].
                 destruct r as [cr|csr fr]; [destruct Hi as [<-|[]]; now apply Hc|].
                 cbn [ocols] in Hi. destruct csr as [|x xs]; [destruct Hi|]. now apply Hc.
              ** cbn [acols ocols]. intros c [<-|Hi]; auto.
        -- destruct (match col_of r with Some c => if is_tab T c then Some c else None | None => None end) as [cr|] eqn:Err.
           ++ destruct r as [cr'|]; [|discriminate]. cbn [col_of] in Err. destruct (is_tab T cr') eqn:Et; [|discriminate]. injection Err as ->.
              apply is_tab_true in Et. rewrite (unq _ (Hq cr ltac:(cbn [acols ocols]; right; left; reflexivity))) in H. cbn [ocolumns] in H.
              destruct (existsb _ _); [discriminate|]. injection H as <-. eapply Hk; [reflexivity| |].
              ** cbn [ocols acols]. intros c [<-|[]]. split; [now apply is_tab_false|]. now left.
              ** cbn [acols ocols]. intros c [<-|[<-|[]]]; cbn; auto.
           ++ rewrite (unq _ (Hq cl ltac:(cbn [acols ocols]; left; reflexivity))) in H.
              destruct (ocolumns r) as [|c0 cs0] eqn:Er.
              ** injection H as <-. eapply Hqr; [reflexivity|]. cbn [acols ocols]. rewrite <- ocolumns_ocols, Er. intros c [<-|[]].
                 cbn [on_clean] in Hc. destruct r as [|csr fr]; [discriminate|]. cbn [ocolumns] in Er. subst csr. exact Hc.
              ** injection H as <-. now apply Hh.
      * destruct (match col_of r with Some c => if is_tab T c then Some c else None | None => None end) as [cr|] eqn:Err.
        -- destruct r as [cr'|]; [|discriminate]. cbn [col_of] in Err. destruct (is_tab T cr') eqn:Et; [|discriminate]. injection Err as ->.
           apply is_tab_true in Et. rewrite (unq _ (Hq cr ltac:(cbn [acols]; rewrite in_app_iff; right; left; reflexivity))) in H.
           cbn [ocolumns] in H. destruct csl as [|x xs].
           ++ injection H as <-. eapply Hqr; [reflexivity|]. cbn [acols ocols app]. intros c [<-|[]]. exact Et.
           ++ destruct (existsb _ _); [discriminate|]. injection H as <-. cbn [on_clean] in Hc. eapply Hk; [reflexivity| |].
              ** cbn [ocols acols]. intros c Hi. split; [now apply Hc|]. rewrite in_app_iff. now left.
              ** cbn [acols ocols]. intros c Hi. rewrite in_app_iff in Hi. destruct Hi as [Hi|[<-|[]]]; auto.
        -- injection H as <-. now apply Hh.
    + destruct l as [cl|csl fl]; cbn [col_of] in H; [|injection H as <-; now apply Hh].
      rewrite (unq _ (Hq cl ltac:(cbn [acols ocols]; left; reflexivity))) in H.
      destruct (ocolumns r) as [|c0 cs0] eqn:Er; injection H as <-; [|now apply Hh]. eapply Hqr; [reflexivity|]. cbn [acols ocols]. rewrite <- ocolumns_ocols, Er. intros c [<-|[]].
      cbn [on_clean] in Hc. destruct r as [|csr fr]; [discriminate|]. cbn [ocolumns] in Er. subst csr. exact Hc.
    + destruct l as [cl|csl fl]; cbn [col_of] in H; [|injection H as <-; now apply Hh].
      rewrite (unq _ (Hq cl ltac:(cbn [acols ocols]; left; reflexivity))) in H.
      destruct (ocolumns r) as [|c0 cs0] eqn:Er; injection H as <-; [|now apply Hh]. eapply Hqr; [reflexivity|]. cbn [acols ocols]. rewrite <- ocolumns_ocols, Er. intros c [<-|[]].
      cbn [on_clean] in Hc. destruct r as [|csr fr]; [discriminate|]. cbn [ocolumns] in Er. subst csr. exact Hc.
    + destruct l as [cl|csl fl]; cbn [col_of] in H; [|injection H as <-; now apply Hh].
      rewrite (unq _ (Hq cl ltac:(cbn [acols ocols]; left; reflexivity))) in H.
      destruct (ocolumns r) as [|c0 cs0] eqn:Er; injection H as <-; [|now apply Hh]. eapply Hqr; [reflexivity|]. cbn [acols ocols]. rewrite <- ocolumns_ocols, Er. intros c [<-|[]].
      cbn [on_clean] in Hc. destruct r as [|csr fr]; [discriminate|]. cbn [ocolumns] in Er. subst csr. exact Hc.
    + destruct l as [cl|csl fl]; cbn [col_of] in H; [|injection H as <-; now apply Hh].
      rewrite (unq _ (Hq cl ltac:(cbn [acols ocols]; left; reflexivity))) in H.
      destruct (ocolumns r) as [|c0 cs0] eqn:Er; injection H as <-; [|now apply Hh]. eapply Hqr; [reflexivity|]. cbn [acols ocols]. rewrite <- ocolumns_ocols, Er. intros c [<-|[]].
      cbn [on_clean] in Hc. destruct r as [|csr fr]; [discriminate|]. cbn [ocolumns] in Er. subst csr. exact Hc.
    + destruct l as [cl|csl fl]; cbn [col_of] in H; [|injection H as <-; now apply Hh].
      rewrite (unq _ (Hq cl ltac:(cbn [acols ocols]; left; reflexivity))) in H.
      destruct (ocolumns r) as [|c0 cs0] eqn:Er; injection H as <-; [|now apply Hh]. eapply Hqr; [reflexivity|]. cbn [acols ocols]. rewrite <- ocolumns_ocols, Er. intros c [<-|[]].
      cbn [on_clean] in Hc. destruct r as [|csr fr]; [discriminate|]. cbn [ocolumns] in Er. subst csr. exact Hc.
  - destruct l as [cl|csl fl]; cbn [col_of] in H; [|injection H as <-; now apply Hh].
    rewrite (unq _ (Hq cl ltac:(cbn [acols ocols]; left; reflexivity))) in H. injection H as <-. eapply Hqr; [reflexivity|]. cbn [acols ocols]. intros c [<-|[]]. exact Hc.
  - injection H as <-. now apply Hh.
Qed.

Lemma parse_on_plan : forall cmpv p T on2 on1 pl pl', (forall a, In a on2 -> on_clean T a /\ qualified a) -> plan_ok p T on1 pl ->
  parse_on cmpv T pl on2 = Ok pl' -> plan_ok p T (on1 ++ on2) pl'.
Proof.
  intros cmpv p T on2. induction on2 as [|a on2 IH]; intros on1 pl pl' Hc Hp H; cbn [parse_on] in H.
  - injection H as <-. now rewrite app_nil_r.
  - destruct (parse_on1 cmpv T pl a) as [pl1|] eqn:E; [|discriminate].
    destruct (Hc a (or_introl eq_refl)) as [A B].
    replace (on1 ++ a :: on2) with ((on1 ++ [a]) ++ on2) by (now rewrite <- app_assoc).
    eapply IH; [intros b Hb; apply Hc; now right| |exact H]. eapply parse_on1_plan; eauto.
Qed.

(** The tables that the compiled join looks for are those that the ON reads. *)
Lemma refs_on : forall cmpv p j pl, (forall a, In a (jon j) -> on_clean (jtab j) a /\ qualified a) ->
  (forall a, In a (jon j) -> right_side_plain p (jtab j) a) ->
  parse_on cmpv (jtab j) (Plan [] [] []) (jon j) = Ok pl ->
  forall tb, In tb (refs p (JTab (jtab j) pl)) <-> on_reads j tb /\ tb <> p /\ tb <> jtab j.
Proof.
  intros cmpv p j pl Hc Hr H tb.
  assert (Hp : plan_ok p (jtab j) ([] ++ jon j) pl).
  { eapply parse_on_plan; eauto. split; [|split]; cbn; intros; contradiction. }
  cbn [app] in Hp. destruct Hp as (H1 & H2 & H3). unfold refs. cbn [n_name n_plan]. rewrite in_other. unfold join_columns. split.
  - intros (c & Hi & Ec & Hn). rewrite in_app_iff in Hi. destruct Hi as [Hi|Hi].
    + apply in_flat_map in Hi. destruct Hi as (k & Hk & Hi). destruct (H1 k c Hk Hi) as (A & a & B & C).
      split; [exists a, c; auto|]. split; [exact Hn|congruence].
    + apply filter_In in Hi. destruct Hi as [Hi Ht]. apply in_flat_map in Hi. destruct Hi as (a & Ha & Hi).
      apply negb_true_iff in Ht. apply is_tab_false in Ht. split; [|split; [exact Hn|congruence]].
      exists a, c. split; [now apply H2|]. split; [|exact Ec]. destruct a as [o l r|l f|cs f]; cbn [filter_fields acols] in *; rewrite ?ocolumns_ocols in Hi; auto.
      destruct (col_of l); rewrite ?ocolumns_ocols in Hi; [exact Hi|]. rewrite in_app_iff. auto.
  - intros ((a & c & Ha & Hi & Ec) & Hn & Ht). exists c. split; [|auto]. rewrite in_app_iff.
    destruct (H3 a c Ha Hi) as [(k & Hk & Hk')|[E|Hh]]; [left; apply in_flat_map; eauto|congruence|].
    right. apply filter_In. split.
    + apply in_flat_map. exists a. split; [exact Hh|]. specialize (Hr a Ha).
      destruct a as [o l r|l f|cs f]; cbn [filter_fields acols] in *; rewrite ?ocolumns_ocols; auto.
      destruct l as [cl|csl fl]; cbn [col_of]; [exact Hi|]. rewrite in_app_iff in Hi. destruct Hi as [Hi|Hi]; [exact Hi|].
      cbn [right_side_plain] in Hr. destruct (Hr c tb Hi Ec); congruence.
    + apply negb_true_iff. destruct (is_tab (jtab j) c) eqn:E; [|reflexivity]. apply is_tab_true in E. congruence.
Qed.

Lemma NoDup_app_intro' : forall A (a b : list A), NoDup a -> NoDup b -> (forall x, In x a -> ~ In x b) -> NoDup (a ++ b).
Proof.
  induction a as [|x a IH]; intros b Ha Hb H; [exact Hb|]. apply NoDup_cons_iff in Ha. destruct Ha as [H1 H2]. cbn [app]. constructor.
  - rewrite in_app_iff. intros [Hi|Hi]; [now apply H1|]. apply (H x); [now left|exact Hi].
  - apply IH; auto. intros y Hy. apply H. now right.
Qed.

(** ** The order of the tables *)
Section Order.
Variable p : text.
Variable ord : list text -> list text.
Hypothesis Hord : some_order ord.
Variable tabs : list jtable.

Lemma find_table_in : forall n l x, find_table n l = Some x -> In x l /\ n_name x = n.
Proof.
  induction l as [|y l IH]; intros x H; [discriminate|]. cbn [find_table] in H. destruct (text_eqb n (n_name y)) eqn:E.
  - injection H as <-. apply text_eqb_spec in E. split; [now left|auto].
  - destruct (IH x H). split; [now right|assumption].
Qed.
Lemma find_table_some : forall n l, In n (names l) -> exists x, find_table n l = Some x.
Proof.
  induction l as [|y l IH]; intros H; [destruct H|]. cbn [find_table]. destruct (text_eqb n (n_name y)) eqn:E; [eauto|].
  apply IH. destruct H as [<-|H]; [|exact H]. now rewrite text_eqb_refl in E.
Qed.
Lemma find_tables_ok : forall x ns ys, find_tables tabs x ns = Ok ys -> names ys = ns /\ incl ys tabs.
Proof.
  induction ns as [|n ns IH]; intros ys H; cbn [find_tables] in H; [injection H as <-; split; [reflexivity|intros z []]|].
  destruct (find_table n tabs) as [y|] eqn:E; [|discriminate]. destruct (find_tables tabs x ns) as [zs|] eqn:E2; [|discriminate].
  injection H as <-. destruct (find_table_in _ _ E) as [A B]. destruct (IH zs eq_refl) as [C D]. split; [unfold names in *; cbn [map]; now rewrite B, C|].
  intros z [<-|Hz]; auto.
Qed.
Lemma find_tables_some : forall x ns, incl ns (names tabs) -> exists ys, find_tables tabs x ns = Ok ys.
Proof.
  induction ns as [|n ns IH]; intros H; cbn [find_tables]; [eauto|].
  destruct (find_table_some n tabs (H n (or_introl eq_refl))) as (y & ->).
  destruct IH as (ys & ->); [intros z Hz; apply H; now right|eauto].
Qed.

Definition level (cur : list jtable) : list text := ord (flat_map (refs p) cur).
Lemma column_tables_step : forall f cur acc, cur <> [] ->
  column_tables p ord tabs (S f) cur acc =
  match find_tables tabs KeyError (level cur) with
  | Err e => Some (Err e)
  | Ok next => column_tables p ord tabs f next (filter (fun x => negb (named_in cur x)) acc ++ cur)
  end.
Proof. intros f cur acc H. destruct cur; [congruence|reflexivity]. Qed.

Lemma in_level : forall cur tb, In tb (level cur) <-> exists x, In x cur /\ In tb (refs p x).
Proof. intros cur tb. unfold level. rewrite (proj2 (Hord _)). apply in_flat_map. Qed.

Lemma named_in_true : forall l x, named_in l x = true <-> In (n_name x) (names l).
Proof.
  intros l x. unfold named_in. rewrite existsb_exists. unfold names. rewrite in_map_iff. split.
  - intros (y & Hy & E). apply text_eqb_spec in E. exists y. auto.
  - intros (y & E & Hy). exists y. split; [exact Hy|]. apply text_eqb_spec. auto.
Qed.
Lemma in_names_filter : forall (cur acc : list jtable) tb, In tb (names acc) -> In tb (names cur) \/ In tb (names (filter (fun x => negb (named_in cur x)) acc)).
Proof.
  intros cur acc tb H. unfold names in H. apply in_map_iff in H. destruct H as (x & <- & Hx). destruct (named_in cur x) eqn:E.
  - left. now apply named_in_true.
  - right. unfold names. apply in_map. apply filter_In. now rewrite E.
Qed.
Lemma NoDup_names_filter : forall f l, NoDup (names l) -> NoDup (names (filter f l)).
Proof.
  induction l as [|x l IH]; intros H; [constructor|]. cbn [names map] in H. apply NoDup_cons_iff in H. destruct H as [H1 H2].
  cbn [filter]. destruct (f x); [|now apply IH]. cbn [names map]. constructor; [|now apply IH].
  intros Hi. apply H1. unfold names in Hi. apply in_map_iff in Hi. destruct Hi as (y & E & Hy). apply filter_In in Hy. rewrite <- E. apply in_map. apply Hy.
Qed.

(** Every table of [acc] finds the tables it reads behind it, or among [cur]. *)
Definition behind (cur acc : list jtable) : Prop :=
  forall l1 x l2 tb, acc = l1 ++ x :: l2 -> In tb (refs p x) -> In tb (names cur) \/ In tb (names l2).

Lemma filter_split : forall (f : jtable -> bool) l l1 x l2, filter f l = l1 ++ x :: l2 ->
  exists m1 m2, l = m1 ++ x :: m2 /\ l2 = filter f m2.
Proof.
  intros f. induction l as [|y l IH]; intros l1 x l2 H; [destruct l1; discriminate|]. cbn [filter] in H. destruct (f y) eqn:E.
  - destruct l1 as [|z l1]; cbn [app] in H.
    + injection H as -> H. exists [], l. now split.
    + injection H as -> H. destruct (IH l1 x l2 H) as (m1 & m2 & -> & ->). exists (z :: m1), m2. now split.
  - destruct (IH l1 x l2 H) as (m1 & m2 & -> & ->). exists (y :: m1), m2. now split.
Qed.

Lemma behind_step : forall cur acc next, behind cur acc -> names next = level cur ->
  behind next (filter (fun x => negb (named_in cur x)) acc ++ cur).
Proof.
  intros cur acc next H Hn l1 x l2 tb E Ht.
  assert (Hcase : (exists m, l1 = filter (fun x => negb (named_in cur x)) acc ++ m /\ cur = m ++ x :: l2) \/
                  (exists m, filter (fun x => negb (named_in cur x)) acc = l1 ++ x :: m /\ l2 = m ++ cur)).
  { revert l1 E. generalize (filter (fun x => negb (named_in cur x)) acc) as a. induction a as [|y a IH]; intros l1 E.
    - left. exists l1. auto.
    - destruct l1 as [|z l1]; cbn [app] in E.
      + injection E as -> <-. right. exists a. auto.
      + injection E as -> E. destruct (IH l1 E) as [(m & -> & Em)|(m & Em & ->)]; [left; exists m; auto|right; exists m].
        rewrite Em. auto. }
  destruct Hcase as [(m & -> & Em)|(m & Em & ->)].
  - left. rewrite Hn. apply in_level. exists x. split; [rewrite Em; apply in_elt|exact Ht].
  - apply filter_split in Em. destruct Em as (m1 & m2 & Ea & ->). right. unfold names. rewrite map_app, in_app_iff.
    destruct (H m1 x m2 tb Ea Ht) as [Hc|Hm]; [now right|].
    destruct (in_names_filter cur m2 tb Hm); auto.
Qed.

Lemma column_tables_sound : forall f cur acc l, incl cur tabs -> incl acc tabs -> NoDup (names cur) -> NoDup (names acc) -> behind cur acc ->
  column_tables p ord tabs f cur acc = Some (Ok l) ->
  incl l tabs /\ NoDup (names l) /\ behind [] l /\ (forall tb, In tb (names cur) \/ In tb (names acc) -> In tb (names l)).
Proof.
  induction f as [|f IH]; intros cur acc l Hc Ha Nc Na Hb H; [discriminate|].
  destruct cur as [|x0 cur0].
  - cbn in H. injection H as <-. split; [exact Ha|]. split; [exact Na|]. split; [exact Hb|]. intros tb [[]|]; assumption.
  - assert (Hne : x0 :: cur0 <> []) by discriminate. revert Hc Nc Hb H Hne. generalize (x0 :: cur0) as cur. clear x0 cur0.
    intros cur Hc Nc Hb H Hne. rewrite (column_tables_step f acc Hne) in H.
    destruct (find_tables tabs KeyError (level cur)) as [next|] eqn:E; [|discriminate].
    apply find_tables_ok in E. destruct E as [En Ei].
    destruct (@IH next (filter (fun x => negb (named_in cur x)) acc ++ cur) l) as (A & B & C & D); [exact Ei| | | | |exact H|].
    + intros x Hx. rewrite in_app_iff in Hx. destruct Hx as [Hx|Hx]; [|auto]. apply filter_In in Hx. now apply Ha.
    + rewrite En. apply Hord.
    + unfold names. rewrite map_app. apply NoDup_app_intro'; [now apply NoDup_names_filter|exact Nc|].
      intros y Hy Hy'. apply in_map_iff in Hy. destruct Hy as (z & <- & Hz). apply filter_In in Hz. destruct Hz as [_ Hz].
      apply negb_true_iff in Hz. apply (proj2 (named_in_true cur z)) in Hy'. congruence.
    + now apply behind_step.
    + split; [exact A|]. split; [exact B|]. split; [exact C|]. intros tb Ht. apply D. right. unfold names. rewrite map_app, in_app_iff.
      destruct Ht as [Ht|Ht]; [now right|]. destruct (in_names_filter cur acc tb Ht); auto.
Qed.

(** Only tables that are reached are taken. *)
Lemma column_tables_within : forall (P : text -> Prop), (forall x tb, In x tabs -> P (n_name x) -> In tb (refs p x) -> P tb) ->
  forall f cur acc l, incl cur tabs -> (forall x, In x cur -> P (n_name x)) -> (forall x, In x acc -> P (n_name x)) ->
  column_tables p ord tabs f cur acc = Some (Ok l) -> forall x, In x l -> P (n_name x).
Proof.
  intros P HP. induction f as [|f IH]; intros cur acc l Hi Hc Ha H; [discriminate|].
  destruct cur as [|x0 cur0]; [cbn in H; injection H as <-; exact Ha|].
  assert (Hne : x0 :: cur0 <> []) by discriminate. revert Hi Hc H Hne. generalize (x0 :: cur0) as cur. clear x0 cur0.
  intros cur Hi Hc H Hne. rewrite (column_tables_step f acc Hne) in H.
  destruct (find_tables tabs KeyError (level cur)) as [next|] eqn:E; [|discriminate].
  apply find_tables_ok in E. destruct E as [En Ei]. eapply IH; [exact Ei| | |exact H].
  - intros x Hx. assert (Hl : In (n_name x) (level cur)) by (rewrite <- En; now apply in_map). apply in_level in Hl.
    destruct Hl as (y & Hy & Hr). eapply HP; eauto.
  - intros x Hx. rewrite in_app_iff in Hx. destruct Hx as [Hx|Hx]; [|auto]. apply filter_In in Hx. apply Ha, Hx.
Qed.

(** When the references go down, the recursion ends. *)
Lemma column_tables_ends : forall (rank : text -> nat),
  (forall x tb, In x tabs -> In tb (refs p x) -> In tb (names tabs) /\ rank tb < rank (n_name x)) ->
  forall n f cur acc, n < f -> incl cur tabs -> (forall x, In x cur -> rank (n_name x) < n) ->
  exists l, column_tables p ord tabs f cur acc = Some (Ok l).
Proof.
  intros rank Hr. induction n as [|n IH]; intros f cur acc Hf Hi Hc; (destruct f as [|f]; [lia|]).
  - destruct cur as [|x cur]; [cbn; eauto|]. specialize (Hc x (or_introl eq_refl)). lia.
  - destruct cur as [|x0 cur0]; [cbn; eauto|].
    assert (Hne : x0 :: cur0 <> []) by discriminate. revert Hi Hc Hne. generalize (x0 :: cur0) as cur. clear x0 cur0. intros cur Hi Hc Hne.
    rewrite (column_tables_step f acc Hne).
    destruct (@find_tables_some KeyError (level cur)) as (next & E).
    + intros tb Ht. apply in_level in Ht. destruct Ht as (x & Hx & Ht). now apply (Hr x tb (Hi x Hx) Ht).
    + rewrite E. apply find_tables_ok in E. destruct E as [En Ei]. apply IH; [lia|exact Ei|].
      intros x Hx. assert (Hl : In (n_name x) (level cur)) by (rewrite <- En; now apply in_map). apply in_level in Hl.
      destruct Hl as (y & Hy & Ht). destruct (Hr y _ (Hi y Hy) Ht). specialize (Hc y Hy). lia.
Qed.

(** When the references go round, it does not. *)
Lemma column_tables_loops : forall (path : nat -> jtable), (forall i, In (path i) tabs) -> NoDup (names tabs) ->
  (forall i, In (n_name (path (S i))) (refs p (path i))) ->
  forall f cur acc i, incl cur tabs -> In (path i) cur -> forall l, column_tables p ord tabs f cur acc <> Some (Ok l).
Proof.
  intros path Hp Hn Hs. induction f as [|f IH]; intros cur acc i Hi Hc l; [discriminate|].
  assert (Hne : cur <> []) by (intros ->; destruct Hc). rewrite (column_tables_step f acc Hne).
  destruct (find_tables tabs KeyError (level cur)) as [next|] eqn:E; [|discriminate].
  apply find_tables_ok in E. destruct E as [En Ei]. apply (IH next _ (S i) Ei).
  assert (Hl : In (n_name (path (S i))) (level cur)) by (apply in_level; exists (path i); auto).
  rewrite <- En in Hl. unfold names in Hl. apply in_map_iff in Hl. destruct Hl as (y & Ey & Hy).
  replace (path (S i)) with y; [exact Hy|].
  assert (G : forall l, NoDup (names l) -> forall a b, In a l -> In b l -> n_name a = n_name b -> a = b).
  { induction l0 as [|z l0 IHl]; intros Nd a b Ha Hb Eab; [destruct Ha|]. cbn [names map] in Nd. apply NoDup_cons_iff in Nd. destruct Nd as [N1 N2].
    destruct Ha as [<-|Ha], Hb as [<-|Hb]; [reflexivity| | |now apply IHl].
    - exfalso. apply N1. rewrite Eab. now apply in_map.
    - exfalso. apply N1. rewrite <- Eab. now apply in_map. }
  apply (G tabs Hn); auto.
Qed.
End Order.

(** ** Reading at a depth *)
Section Depth.
Variable p : text.
Variable cmpv : cmp -> val -> val -> bool.
Variable d : db.

(** The rows chosen for the tables [suf], innermost first, and for the FROM table. *)
Definition env_of (suf : list jtable) (e : env) : Prop := map fst e = names suf ++ [p].

Lemma nth_assoc : forall (e : env) k tb, nth_error (map fst e) k = Some tb -> (forall i, i < k -> nth_error (map fst e) i <> Some tb) ->
  assoc tb e = Some (nth k (map snd e) None).
Proof.
  induction e as [|[n r] e IH]; intros k tb H Hb; [destruct k; discriminate|]. cbn [map fst snd] in *. destruct k as [|k].
  - cbn in H. injection H as ->. cbn [assoc nth]. now rewrite text_eqb_refl.
  - cbn [assoc nth]. destruct (text_eqb tb n) eqn:E.
    + apply text_eqb_spec in E. exfalso. apply (Hb 0); [lia|]. cbn. now rewrite E.
    + apply IH; [exact H|]. intros i Hi. specialize (Hb (S i)). cbn in Hb. apply Hb. lia.
Qed.

Lemma index_of_table_some : forall tb l, In tb (names l) -> exists i, index_of_table tb l = Some i.
Proof.
  induction l as [|x l IH]; intros H; [destruct H|]. cbn [index_of_table]. destruct (text_eqb tb (n_name x)) eqn:E; [eauto|].
  destruct H as [<-|H]; [now rewrite text_eqb_refl in E|]. destruct (IH H) as (i & ->). eauto.
Qed.
Lemma index_of_table_nth : forall tb l i, index_of_table tb l = Some i ->
  nth_error (names l) i = Some tb /\ forall k, k < i -> nth_error (names l) k <> Some tb.
Proof.
  induction l as [|x l IH]; intros i H; [discriminate|]. cbn [index_of_table] in H. destruct (text_eqb tb (n_name x)) eqn:E.
  - injection H as <-. apply text_eqb_spec in E. cbn. split; [now rewrite E|intros; lia].
  - destruct (index_of_table tb l) as [k|]; [|discriminate]. injection H as <-. destruct (IH k eq_refl) as [A B]. cbn. split; [exact A|].
    intros [|j] Hj; cbn; [intros Ek; injection Ek as Ek; rewrite <- Ek, text_eqb_refl in E; discriminate|]. apply B. lia.
Qed.
Lemma index_of_table_app : forall tb pre suf, ~ In tb (names pre) ->
  index_of_table tb (pre ++ suf) = match index_of_table tb suf with None => None | Some i => Some (length pre + i) end.
Proof.
  induction pre as [|x pre IH]; intros suf H; cbn [app length index_of_table]; [now destruct (index_of_table tb suf)|].
  destruct (text_eqb tb (n_name x)) eqn:E; [apply text_eqb_spec in E; exfalso; apply H; left; auto|].
  rewrite IH by (intros Hi; apply H; now right). now destruct (index_of_table tb suf).
Qed.

Definition known (suf : list jtable) (c : col) : Prop := forall tb, ctab c = Some tb -> tb = p \/ In tb (names suf).

Lemma field_look : forall pre suf c, NoDup (names (pre ++ suf)) -> ~ In p (names (pre ++ suf)) -> known suf c ->
  exists r, field p (pre ++ suf) (Z.of_nat (length pre) - 1) c = Ok r /\ forall e, env_of suf e -> look (map snd e) r = cval p e c.
Proof.
  intros pre suf c Nd Np Hk. unfold field, cval.
  assert (Ha : forall tb k e, env_of suf e -> nth_error (names suf ++ [p]) k = Some tb -> (forall i, i < k -> nth_error (names suf ++ [p]) i <> Some tb) ->
             look (map snd e) (S k, cname c) = match assoc tb e with Some (Some r) => rget r (cname c) | _ => VNone end).
  { intros tb k e He H1 H2. unfold look. cbn [fst snd]. unfold env_of in He. rewrite <- He in H1, H2.
    rewrite (nth_assoc _ H1 H2). destruct (nth k (map snd e) None); reflexivity. }
  assert (Hp : forall e, env_of suf e -> look (map snd e) (Z.to_nat (Z.of_nat (length (pre ++ suf)) - (Z.of_nat (length pre) - 1)), cname c) =
                match assoc p e with Some (Some r) => rget r (cname c) | _ => VNone end).
  { intros e He. rewrite app_length.
    replace (Z.to_nat (Z.of_nat (length pre + length suf) - (Z.of_nat (length pre) - 1))) with (S (length suf)) by lia. apply Ha; [exact He| |].
    - rewrite nth_error_app2 by (unfold names; rewrite map_length; lia). unfold names. rewrite map_length, Nat.sub_diag. reflexivity.
    - intros i Hi. rewrite nth_error_app1 by (unfold names; rewrite map_length; lia). intros E. apply nth_error_In in E.
      apply Np. unfold names. rewrite map_app, in_app_iff. now right. }
  destruct (ctab c) as [tb|] eqn:Ec; [|eexists; split; [reflexivity|exact Hp]]. specialize (Hk tb Ec).
  destruct (text_eqb tb p) eqn:Ep.
  - apply text_eqb_spec in Ep. subst tb. eexists. split; [reflexivity|exact Hp].
  - destruct Hk as [->|Hk]; [now rewrite text_eqb_refl in Ep|].
    assert (Hpre : ~ In tb (names pre)).
    { intros Hi. unfold names in Nd. rewrite map_app in Nd. exact (@NoDup_app_split _ _ _ Nd tb Hk Hi). }
    destruct (index_of_table_some tb suf Hk) as (i & Ei). rewrite (index_of_table_app tb pre suf Hpre), Ei.
    destruct (index_of_table_nth _ _ Ei) as [A B].
    assert (Hl : i < length (names suf)) by (apply nth_error_Some; congruence).
    eexists. split; [reflexivity|]. intros e He.
    replace (Z.to_nat (Z.of_nat (length pre + i) - (Z.of_nat (length pre) - 1))) with (S i) by lia. apply Ha; [exact He| |].
    + rewrite nth_error_app1 by exact Hl. exact A.
    + intros k Hk'. rewrite nth_error_app1 by lia. now apply B.
Qed.

Lemma fields_look : forall pre suf cs, NoDup (names (pre ++ suf)) -> ~ In p (names (pre ++ suf)) -> (forall c, In c cs -> known suf c) ->
  exists rs, fields p (pre ++ suf) (Z.of_nat (length pre) - 1) cs = Ok rs /\
             forall e, env_of suf e -> map (look (map snd e)) rs = map (cval p e) cs.
Proof.
  intros pre suf cs Nd Np. induction cs as [|c cs IH]; intros H; cbn [fields].
  - exists []. now split.
  - destruct (@field_look pre suf c Nd Np (H c (or_introl eq_refl))) as (r & -> & Hr).
    destruct IH as (rs & -> & Hrs); [intros c' Hc; apply H; now right|].
    exists (r :: rs). split; [reflexivity|]. intros e He. cbn [map]. now rewrite Hr, Hrs.
Qed.

Lemma comp_op_look : forall pre suf o, NoDup (names (pre ++ suf)) -> ~ In p (names (pre ++ suf)) -> (forall c, In c (ocols o) -> known suf c) ->
  exists o', comp_op p (pre ++ suf) (Z.of_nat (length pre) - 1) o = Ok o' /\
             forall e, env_of suf e -> eval_op (map snd e) o' = oval p e o.
Proof.
  intros pre suf o Nd Np H. destruct o as [c|cs f]; cbn [comp_op ocols] in *.
  - destruct (@field_look pre suf c Nd Np (H c (or_introl eq_refl))) as ((n & x) & -> & Hr). eexists. split; [reflexivity|]. intros e He. exact (Hr e He).
  - destruct (@fields_look pre suf cs Nd Np H) as (rs & -> & Hrs). eexists. split; [reflexivity|]. intros e He. cbn [eval_op oval]. now rewrite Hrs.
Qed.

Lemma comp_atom_look : forall pre suf a, NoDup (names (pre ++ suf)) -> ~ In p (names (pre ++ suf)) -> (forall c, In c (acols a) -> known suf c) ->
  exists a', comp_atom p (pre ++ suf) (Z.of_nat (length pre) - 1) a = Ok a' /\
             forall e, env_of suf e -> eval_atom cmpv (map snd e) a' = atrue cmpv p e a.
Proof.
  intros pre suf a Nd Np H. destruct a as [o l r|l f|cs f]; cbn [comp_atom acols] in *.
  - destruct (@comp_op_look pre suf l Nd Np) as (l' & -> & Hl); [intros c Hc; apply H; rewrite in_app_iff; auto|].
    destruct (@comp_op_look pre suf r Nd Np) as (r' & -> & Hr); [intros c Hc; apply H; rewrite in_app_iff; auto|].
    eexists. split; [reflexivity|]. intros e He. cbn [eval_atom atrue]. now rewrite Hl, Hr.
  - destruct (@comp_op_look pre suf l Nd Np H) as (l' & -> & Hl). eexists. split; [reflexivity|]. intros e He. cbn [eval_atom atrue]. now rewrite Hl.
  - destruct (@fields_look pre suf cs Nd Np H) as (rs & -> & Hrs). eexists. split; [reflexivity|]. intros e He. cbn [eval_atom atrue]. now rewrite Hrs.
Qed.

Lemma comp_keys_look : forall pre suf ks, NoDup (names (pre ++ suf)) -> ~ In p (names (pre ++ suf)) ->
  (forall k c, In k ks -> In c (ocols (snd k)) -> known suf c) ->
  exists ks', comp_keys p (pre ++ suf) (Z.of_nat (length pre) - 1) ks = Ok ks' /\
    forall e (get : text -> val), env_of suf e ->
      forallb (fun k => cmpv CEq (get (fst k)) (eval_op (map snd e) (snd k))) ks' = forallb (fun k => cmpv CEq (get (fst k)) (oval p e (snd k))) ks.
Proof.
  intros pre suf ks Nd Np. induction ks as [|[n o] ks IH]; intros H; cbn [comp_keys].
  - exists []. now split.
  - destruct (@comp_op_look pre suf o Nd Np (fun c => H (n, o) c (or_introl eq_refl))) as (o' & -> & Ho).
    destruct IH as (ks' & -> & Hks); [intros k c Hk; apply H; now right|].
    eexists. split; [reflexivity|]. intros e get He. cbn [forallb fst snd]. now rewrite Ho, Hks.
Qed.

Lemma comp_having_look : forall pre suf r a, NoDup (names (pre ++ suf)) -> ~ In p (names (pre ++ suf)) ->
  (forall b c, In b (a :: r) -> In c (acols b) -> known suf c) ->
  exists h, comp_having p (pre ++ suf) (Z.of_nat (length pre) - 1) a r = Ok h /\
    forall e, env_of suf e -> eval_having cmpv (map snd e) h = forallb (atrue cmpv p e) (a :: r).
Proof.
  intros pre suf r. induction r as [|b r IH]; intros a Nd Np H; cbn [comp_having];
    destruct (@comp_atom_look pre suf a Nd Np (fun c => H a c (or_introl eq_refl))) as (a' & -> & Ha).
  - eexists. split; [reflexivity|]. intros e He. cbn [eval_having forallb]. now rewrite Ha, andb_true_r.
  - destruct (IH b Nd Np) as (h & -> & Hh); [intros b' c Hb; apply H; now right|].
    eexists. split; [reflexivity|]. intros e He. cbn [eval_having]. rewrite Ha, Hh by exact He. cbn [forallb]. now destruct (atrue cmpv p e a).
Qed.

(** One join around a column. *)
Lemma wrap_eval : forall pre x r column (g : env -> list val), NoDup (names (pre ++ x :: r)) -> ~ In p (names (pre ++ x :: r)) ->
  (forall k c, In k (o_keys (n_plan x)) -> In c (ocols (snd k)) -> known r c) ->
  (forall a c, In a (o_having (n_plan x)) -> In c (acols a) -> known (x :: r) c) ->
  (forall e, env_of (x :: r) e -> eval cmpv d (map snd e) column = g e) ->
  exists c, wrap p (pre ++ x :: r) (length pre) x column = Ok c /\
    forall e, env_of r e -> eval cmpv d (map snd e) c = flat_map g (run_join cmpv d p (n_name x) (n_plan x) [e]).
Proof.
  intros pre x r column g Nd Np Hk Hh Hg.
  assert (Hk' : exists ks', comp_keys p (pre ++ x :: r) (Z.of_nat (length pre)) (o_keys (n_plan x)) = Ok ks' /\
    forall e (get : text -> val), env_of r e ->
      forallb (fun k => cmpv CEq (get (fst k)) (eval_op (map snd e) (snd k))) ks' =
      forallb (fun k => cmpv CEq (get (fst k)) (oval p e (snd k))) (o_keys (n_plan x))).
  { replace (pre ++ x :: r) with ((pre ++ [x]) ++ r) in * by (now rewrite <- app_assoc).
    replace (Z.of_nat (length pre)) with (Z.of_nat (length (pre ++ [x])) - 1)%Z by (rewrite app_length; cbn; lia).
    now apply comp_keys_look. }
  destruct Hk' as (ks & Eks & Hks). unfold wrap. rewrite Eks.
  assert (Hcol : exists h, (match o_having (n_plan x) with
                 | [] => Ok (CJoin ks (n_name x) (o_query (n_plan x)) None column)
                 | a :: q => match comp_having p (pre ++ x :: r) (Z.of_nat (length pre) - 1) a q with
                             | Err e => Err e
                             | Ok h => Ok (CJoin ks (n_name x) (o_query (n_plan x)) (Some h) column)
                             end
                 end = Ok (CJoin ks (n_name x) (o_query (n_plan x)) h column)) /\
                 forall e, env_of (x :: r) e ->
                   match h with None => true | Some h => eval_having cmpv (map snd e) h end = forallb (atrue cmpv p e) (o_having (n_plan x))).
  { destruct (o_having (n_plan x)) as [|a q].
    - exists None. split; [reflexivity|]. reflexivity.
    - destruct (@comp_having_look pre (x :: r) q a Nd Np Hh) as (h & -> & E). exists (Some h). split; [reflexivity|exact E]. }
  destruct Hcol as (h & -> & Eh). eexists. split; [reflexivity|]. intros e He.
  assert (Henv : forall y, env_of (x :: r) ((n_name x, y) :: e)) by (intros y; unfold env_of in *; cbn [map fst names app]; f_equal; exact He).
  unfold run_join. cbn [flat_map]. rewrite app_nil_r. cbn [eval].
  rewrite (@filter_ext _ _ (joins_row cmpv p (n_name x) (n_plan x) e)).
  - destruct (filter _ (d (n_name x))) as [|r0 rs].
    + cbn [flat_map]. rewrite app_nil_r. exact (Hg _ (Henv None)).
    + change (Some r0 :: map snd e) with (map snd ((n_name x, Some r0) :: e)).
      rewrite flat_map_concat_map, flat_map_concat_map. rewrite map_map. f_equal. apply map_ext. intros r1. exact (Hg _ (Henv (Some r1))).
  - intros r0. unfold joins_row. f_equal; [f_equal; exact (Hks e (fun n => match assoc n r0 with Some v => v | None => VNone end) He)|]. exact (Eh _ (Henv (Some r0))).
Qed.

Lemma run_join_each : forall T pl es, run_join cmpv d p T pl es = flat_map (fun e => run_join cmpv d p T pl [e]) es.
Proof. intros T pl es. unfold run_join. apply flat_map_ext. intros e. cbn [flat_map]. now rewrite app_nil_r. Qed.

Lemma run_join_env : forall x r es e, (forall e, In e es -> env_of r e) -> In e (run_join cmpv d p (n_name x) (n_plan x) es) -> env_of (x :: r) e.
Proof.
  intros x r es e H Hi. unfold run_join in Hi. apply in_flat_map in Hi. destruct Hi as (e0 & He & Hi). specialize (H e0 He).
  unfold env_of in *. cbn [names map]. destruct (filter _ _) as [|r0 rs].
  - destruct Hi as [<-|[]]. cbn [map fst app]. f_equal. exact H.
  - apply in_map_iff in Hi. destruct Hi as (r1 & <- & _). cbn [map fst app]. f_equal. exact H.
Qed.

(** The joins [rest], from the outside in, of the rows of the FROM table. *)
Definition runs (rest : list jtable) (es : list env) : list env :=
  fold_right (fun x es => run_join cmpv d p (n_name x) (n_plan x) es) es rest.

Lemma runs_env : forall rest es, (forall e, In e es -> env_of [] e) -> forall e, In e (runs rest es) -> env_of rest e.
Proof.
  induction rest as [|x rest IH]; intros es H e He; cbn [runs fold_right] in He; [now apply H|].
  eapply run_join_env; [|exact He]. now apply IH.
Qed.

Definition closed (l : list jtable) : Prop := forall l1 x l2, l = l1 ++ x :: l2 ->
  (forall k c, In k (o_keys (n_plan x)) -> In c (ocols (snd k)) -> known l2 c) /\
  (forall a c, In a (o_having (n_plan x)) -> In c (acols a) -> known (x :: l2) c).

Lemma wraps_eval : forall rest pre column (g : env -> list val), NoDup (names (pre ++ rest)) -> ~ In p (names (pre ++ rest)) -> closed (pre ++ rest) ->
  (forall e, env_of rest e -> eval cmpv d (map snd e) column = g e) ->
  exists c, wraps p (pre ++ rest) (length pre) rest column = Ok c /\
    forall e, env_of [] e -> eval cmpv d (map snd e) c = flat_map g (runs rest [e]).
Proof.
  induction rest as [|x rest IH]; intros pre column g Nd Np Hc Hg; cbn [wraps].
  - exists column. split; [reflexivity|]. intros e He. cbn [runs fold_right flat_map]. rewrite app_nil_r. now apply Hg.
  - destruct (Hc pre x rest eq_refl) as [A B].
    destruct (@wrap_eval pre x rest column g Nd Np A B Hg) as (c1 & E1 & H1). rewrite E1.
    replace (pre ++ x :: rest) with ((pre ++ [x]) ++ rest) in * by (now rewrite <- app_assoc).
    destruct (IH (pre ++ [x]) c1 _ Nd Np Hc H1) as (c & E & H).
    replace (length (pre ++ [x])) with (S (length pre)) in E by (rewrite app_length; cbn; lia).
    exists c. split; [exact E|]. intros e He. rewrite (H e He). cbn [runs fold_right].
    rewrite (run_join_each (n_name x) (n_plan x) (fold_right _ _ _)). fold (runs rest [e]).
    clear. induction (runs rest [e]) as [|y l IHl]; [reflexivity|]. cbn [flat_map]. now rewrite flat_map_app, IHl.
Qed.
End Depth.

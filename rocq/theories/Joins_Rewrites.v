(** The rewrites of FROM a, b and of RIGHT JOIN; the loop that selects the new primary table. *)
From Coq Require Import Permutation.
From Verif Require Import Base PyVal Joins_Syntax Joins_Spec Joins_Model Joins_Proofs.

Lemma base_rows : forall cmpv p d tb, inner_join cmpv p d tb [] [[]] = map (fun r => [(tb, Some r)]) (d tb).
Proof.
  intros. unfold inner_join, matches. cbn [flat_map]. rewrite app_nil_r. apply filter_all. reflexivity.
Qed.

Lemma alltrue_app : forall cmpv p a b e, alltrue cmpv p (a ++ b) e = alltrue cmpv p a e && alltrue cmpv p b e.
Proof. intros. unfold alltrue. apply forallb_app. Qed.

Lemma alltrue_ext : forall cmpv p l T x e ts, ~ In T ts -> reads ts l ->
  alltrue cmpv p l ((T, x) :: e) = alltrue cmpv p l e.
Proof.
  intros cmpv p l T x e ts Hn Hr. unfold alltrue. apply forallb_ext_in. intros a Ha.
  assert (Ho : forall o, incl (ocols o) (acols a) -> oval p ((T, x) :: e) o = oval p e o).
  { intros o Hi. apply oval_ext. intros c Hc. destruct (Hr a c Ha (Hi c Hc)) as (tb & H1 & H2).
    exists tb. split; [exact H1|congruence]. }
  assert (Hm : forall cs, incl cs (acols a) -> map (cval p ((T, x) :: e)) cs = map (cval p e) cs).
  { intros cs Hi. apply map_ext_in. intros c Hc. destruct (Hr a c Ha (Hi c Hc)) as (tb & H1 & H2).
    apply cval_ext with (tb := tb); [exact H1|congruence]. }
  destruct a as [o l0 r|l0 f|cs f]; cbn [atrue].
  - rewrite (Ho l0), (Ho r); [reflexivity| |]; cbn [acols]; intros c Hc; apply in_or_app; auto.
  - rewrite (Ho l0); [reflexivity|]. intros c Hc. exact Hc.
  - rewrite (Hm cs); [reflexivity|]. intros c Hc. exact Hc.
Qed.

Section Multi.
Variable cmpv : cmp -> val -> val -> bool.
Variable p : text.
Variable d : db.
Variable W : list atom.

(** WHERE comparisons: qualified columns; expressions read only the first table. *)
Definition multi_ok (ts : list text) (a : atom) : Prop :=
  (forall c, In c (acols a) -> ctab c <> None) /\
  match a with
  | ACmp _ l r => forall cs f, (l = OExpr cs f \/ r = OExpr cs f) -> forall c, In c cs -> ctab c = Some p
  | _ => True
  end.

Definition ons (T : text) (can : list text) : list atom := on_atoms T can W ++ const_atoms T can W.

Lemma in_can_spec : forall can c, in_can can c = true <-> exists tb, ctab c = Some tb /\ In tb can.
Proof.
  intros can c. unfold in_can, tab_mem. rewrite existsb_exists. split.
  - intros (x & Hx & E). apply in_map_iff in Hx. destruct Hx as (tb & <- & Hi).
    unfold tab_eqb in E. destruct (ctab c) as [y|]; [|discriminate]. apply text_eqb_spec in E. subst y. eauto.
  - intros (tb & -> & Hi). exists (Some tb). split; [now apply in_map|]. cbn [tab_eqb]. apply text_eqb_refl.
Qed.

(** The conjuncts put into an ON: a column of the joined table against a column of an earlier table, or
    against an expression. *)
Lemma ons_spec : forall T can a, can <> [] -> In a (ons T can) ->
  In a W /\ exists o l r c v, a = ACmp o l r /\ ctab c = Some T /\
    ((l = OCol c /\ r = v) \/ (r = OCol c /\ l = v)) /\
    match v with OCol c' => exists tb, ctab c' = Some tb /\ In tb can | OExpr _ _ => True end.
Proof.
  intros T can a Hcan Hi. unfold ons, on_atoms, const_atoms in Hi. apply in_app_or in Hi.
  assert (Ha : In a W /\ classify T can a <> ClCalc).
  { destruct Hi as [Hi|Hi]; apply filter_In in Hi; destruct Hi as [Hi E]; (split; [exact Hi|]);
      unfold is_on, is_const in E; now destruct (classify T can a). }
  destruct Ha as [Ha Hc]. split; [exact Ha|]. unfold classify in Hc. destruct a as [o l r| |]; [|congruence..].
  destruct (on_value T can l r) as [v|] eqn:E; [|congruence]. clear Hc Hi.
  destruct can as [|c0 can0]; [congruence|]. set (can := c0 :: can0) in *.
  assert (Hcol : forall x, in_can can x = true -> exists tb, ctab x = Some tb /\ In tb can) by (intros x; apply in_can_spec).
  unfold on_value in E. unfold can in E at 1 2. fold can in E.
  exists o, l, r.
  destruct l as [x|xs xf]; destruct r as [y|ys yf]; cbn [col_of] in E.
  - destruct (is_tab T x) eqn:Ex.
    + apply is_tab_true in Ex.
      destruct (in_can can y) eqn:Ey.
      * injection E as <-. exists x, (OCol y). cbn. auto 6.
      * destruct (is_tab T y) eqn:Ty; [|discriminate]. apply is_tab_true in Ty.
        destruct (in_can can x) eqn:Ex'; [|discriminate]. injection E as <-. exists y, (OCol x). cbn. auto 6.
    + destruct (is_tab T y) eqn:Ty; [|discriminate]. apply is_tab_true in Ty.
      destruct (in_can can x) eqn:Ex'; [|discriminate]. injection E as <-. exists y, (OCol x). cbn. auto 6.
  - destruct (is_tab T x) eqn:Ex; [|discriminate]. apply is_tab_true in Ex. injection E as <-.
    exists x, (OExpr ys yf). auto 6.
  - destruct (is_tab T y) eqn:Ty; [|discriminate]. apply is_tab_true in Ty. injection E as <-.
    exists y, (OExpr xs xf). auto 6.
  - discriminate.
Qed.

Hypothesis Hnull : null_rejecting cmpv.
Hypothesis Hsym : eq_symmetric cmpv.
Hypothesis Hok : forall a, In a W -> multi_ok [] a.

Lemma ons_reads : forall T can, In p can -> reads (T :: can) (ons T can).
Proof.
  intros T can Hp a c Ha Hc. assert (Hcan : can <> []) by (intros ->; destruct Hp).
  destruct (ons_spec T can a Hcan Ha) as (Hw & o & l & r & c0 & v & -> & Hc0 & Hlr & Hv).
  destruct (Hok _ Hw) as [_ Hx].
  assert (Hvc : In c (ocols v) -> exists tb, ctab c = Some tb /\ In tb (T :: can)).
  { intros Hi. destruct v as [c'|cs f]; cbn [ocols] in Hi.
    - destruct Hi as [<-|[]]. destruct Hv as (tb & H1 & H2). exists tb. split; [exact H1|now right].
    - exists p. split; [|now right]. apply (Hx cs f); [|exact Hi]. destruct Hlr as [[_ ->]|[_ ->]]; auto. }
  assert (Hown : c = c0 -> exists tb, ctab c = Some tb /\ In tb (T :: can)).
  { intros ->. exists T. split; [exact Hc0|now left]. }
  cbn [acols] in Hc. apply in_app_or in Hc.
  destruct Hlr as [[-> ->]|[-> ->]]; destruct Hc as [Hc|Hc]; auto;
    destruct Hc as [<-|[]]; auto.
Qed.

Lemma ons_clean : forall T can a, In p can -> ~ In T can -> In a (ons T can) -> on_clean T a /\ qualified a.
Proof.
  intros T can a Hp HT Ha. assert (Hcan : can <> []) by (intros ->; destruct Hp).
  assert (Hpt : p <> T) by (intros ->; contradiction).
  destruct (ons_spec T can a Hcan Ha) as (Hw & o & l & r & c0 & v & -> & Hc0 & Hlr & Hv).
  destruct (Hok _ Hw) as [Hq Hx]. split; [|exact Hq].
  assert (Hvn : forall c', In c' (ocols v) -> ctab c' <> Some T).
  { intros c' Hi. destruct v as [c1|cs f]; cbn [ocols] in Hi.
    - destruct Hi as [<-|[]]. destruct Hv as (tb & H1 & H2). congruence.
    - rewrite (Hx cs f); [congruence| |exact Hi]. destruct Hlr as [[_ ->]|[_ ->]]; auto. }
  destruct Hlr as [[-> ->]|[-> ->]].
  - destruct v as [c1|[|c1 cs] f]; cbn [on_clean].
    + destruct o; try exact I. intros _. apply Hvn. now left.
    + destruct o; exact Hc0.
    + destruct o; try exact I. intros _ c' Hi. now apply Hvn.
  - destruct v as [c1|cs f]; cbn [on_clean].
    + destruct o; try exact I. intros E. exfalso. apply (Hvn c1); [now left|exact E].
    + destruct o; try exact I. intros _ c' Hi. now apply Hvn.
Qed.

Lemma ons_null : forall T can e, can <> [] -> ons T can <> [] ->
  alltrue cmpv p (ons T can) ((T, None) :: e) = false.
Proof.
  intros T can e Hcan Hne. destruct (ons T can) as [|a l] eqn:E; [congruence|].
  destruct (ons_spec T can a Hcan) as (Hw & o & x & y & c0 & v & -> & Hc0 & Hlr & _); [rewrite E; now left|].
  unfold alltrue. cbn [forallb]. apply andb_false_iff. left. cbn [atrue].
  destruct Hlr as [[-> _]|[-> _]]; cbn [oval]; rewrite cval_null by exact Hc0.
  - exact (proj1 (Hnull o _)).
  - exact (proj2 (Hnull o _)).
Qed.

Definition crosses (ts : list text) (es : list env) : list env :=
  fold_left (fun es tb => inner_join cmpv p d tb [] es) ts es.

Lemma ons_sub : forall T can e, alltrue cmpv p W e = true -> alltrue cmpv p (ons T can) e = true.
Proof.
  intros T can e H. unfold alltrue in *. apply forallb_forall. intros a Ha.
  apply (proj1 (forallb_forall _ _) H). unfold ons, on_atoms, const_atoms in Ha. apply in_app_or in Ha.
  destruct Ha as [Ha|Ha]; apply filter_In in Ha; tauto.
Qed.
Lemma filter_W : forall T can l, filter (alltrue cmpv p W) l =
  filter (alltrue cmpv p W) (filter (alltrue cmpv p (ons T can)) l).
Proof.
  intros T can l. rewrite filter_filter. apply filter_ext. intros e.
  destruct (alltrue cmpv p W e) eqn:E; [|now rewrite andb_false_r]. now rewrite ons_sub.
Qed.

Fixpoint fresh (can ts : list text) : Prop :=
  match ts with [] => True | tb :: r => ~ In tb can /\ ons tb can <> [] /\ fresh (can ++ [tb]) r end.

Lemma lefts_filter : forall ts can can' q es, fresh can ts -> incl can' can ->
  (forall T x e, ~ In T can' -> q ((T, x) :: e) = q e) ->
  filter q (lefts cmpv p d (multi_joins can W ts) es) = lefts cmpv p d (multi_joins can W ts) (filter q es).
Proof.
  induction ts as [|tb ts IH]; intros can can' q es Hf Hi Hq; [reflexivity|].
  cbn [multi_joins]. unfold lefts. cbn [fold_left jtab jon]. cbn [fresh] in Hf. destruct Hf as (H1 & _ & H3).
  change (filter q (lefts cmpv p d (multi_joins (can ++ [tb]) W ts) (left_join cmpv p d tb (ons tb can) es)) =
          lefts cmpv p d (multi_joins (can ++ [tb]) W ts) (left_join cmpv p d tb (ons tb can) (filter q es))).
  rewrite (IH (can ++ [tb]) can' q); [|exact H3|intros x Hx; apply in_or_app; left; now apply Hi|exact Hq].
  f_equal. apply (step_filter cmpv p d false). intros x e. apply Hq. auto.
Qed.
Lemma crosses_filter : forall ts can can' q es, fresh can ts -> incl can' can ->
  (forall T x e, ~ In T can' -> q ((T, x) :: e) = q e) ->
  filter q (crosses ts es) = crosses ts (filter q es).
Proof.
  induction ts as [|tb ts IH]; intros can can' q es Hf Hi Hq; [reflexivity|].
  unfold crosses. cbn [fold_left]. cbn [fresh] in Hf. destruct Hf as (H1 & _ & H3).
  change (filter q (crosses ts (inner_join cmpv p d tb [] es)) = crosses ts (inner_join cmpv p d tb [] (filter q es))).
  rewrite (IH (can ++ [tb]) can' q); [|exact H3|intros x Hx; apply in_or_app; left; now apply Hi|exact Hq].
  f_equal. apply (step_filter cmpv p d true). intros x e. apply Hq. auto.
Qed.

Lemma left_on_inner : forall T can es, can <> [] -> ons T can <> [] ->
  filter (alltrue cmpv p (ons T can)) (left_join cmpv p d T (ons T can) es) = inner_join cmpv p d T (ons T can) es.
Proof.
  intros T can es Hcan Hne. unfold left_join, inner_join. rewrite filter_flat_map. apply flat_map_ext. intros e.
  assert (Hall : filter (alltrue cmpv p (ons T can)) (matches cmpv p d T (ons T can) e) = matches cmpv p d T (ons T can) e).
  { apply filter_all. intros x Hx. unfold matches in Hx. apply filter_In in Hx. tauto. }
  destruct (matches cmpv p d T (ons T can) e); [|exact Hall].
  cbn [filter]. now rewrite ons_null.
Qed.
Lemma cross_on_inner : forall T on es,
  filter (alltrue cmpv p on) (inner_join cmpv p d T [] es) = inner_join cmpv p d T on es.
Proof.
  intros T on es. unfold inner_join. rewrite filter_flat_map. apply flat_map_ext. intros e.
  unfold matches. rewrite filter_filter. apply filter_ext. reflexivity.
Qed.

Lemma multi_lefts : forall ts can es, In p can -> fresh can ts ->
  filter (alltrue cmpv p W) (lefts cmpv p d (multi_joins can W ts) es) =
  filter (alltrue cmpv p W) (crosses ts es).
Proof.
  induction ts as [|tb ts IH]; intros can es Hp Hf; [reflexivity|].
  assert (Hcan : can <> []) by (intros ->; destruct Hp).
  cbn [multi_joins]. unfold lefts, crosses. cbn [fold_left jtab jon].
  change (filter (alltrue cmpv p W) (lefts cmpv p d (multi_joins (can ++ [tb]) W ts) (left_join cmpv p d tb (ons tb can) es)) =
          filter (alltrue cmpv p W) (crosses ts (inner_join cmpv p d tb [] es))).
  cbn [fresh] in Hf. destruct Hf as (H1 & H2 & H3).
  rewrite (filter_W tb can (lefts _ _ _ _ _)), (filter_W tb can (crosses _ _)).
  assert (Hq : forall T x e, ~ In T (tb :: can) -> alltrue cmpv p (ons tb can) ((T, x) :: e) = alltrue cmpv p (ons tb can) e).
  { intros T x e HT. eapply alltrue_ext; [exact HT|]. now apply ons_reads. }
  assert (Hincl : incl (tb :: can) (can ++ [tb])).
  { intros x [<-|Hx]; apply in_or_app; [right; now left|now left]. }
  rewrite (@lefts_filter ts (can ++ [tb]) (tb :: can)); [|exact H3|exact Hincl|exact Hq].
  rewrite (@crosses_filter ts (can ++ [tb]) (tb :: can)); [|exact H3|exact Hincl|exact Hq].
  rewrite left_on_inner, cross_on_inner by assumption.
  apply IH; [apply in_or_app; now left|exact H3].
Qed.

Lemma multi_clean : forall ts can, In p can -> fresh can ts ->
  forall j a, In j (multi_joins can W ts) -> In a (jon j) -> on_clean (jtab j) a /\ qualified a.
Proof.
  induction ts as [|tb ts IH]; intros can Hp Hf j a Hj Ha; cbn [multi_joins] in Hj; [destruct Hj|].
  cbn [fresh] in Hf. destruct Hf as (H1 & _ & H3). destruct Hj as [<-|Hj].
  - cbn [jtab jon] in *. exact (ons_clean tb can a Hp H1 Ha).
  - apply (IH (can ++ [tb])); [apply in_or_app; now left|exact H3|exact Hj|exact Ha].
Qed.

Lemma sql_from_crosses : forall ts st,
  snd (fold_left (fun st tb => (tb :: fst st, inner_join cmpv p d tb [] (snd st))) ts st) = crosses ts (snd st).
Proof.
  induction ts as [|tb ts IH]; intros st; [reflexivity|]. cbn [fold_left]. rewrite IH. reflexivity.
Qed.
End Multi.

(** ** One RIGHT JOIN *)
Section Right.
Variable cmpv : cmp -> val -> val -> bool.
Variable d : db.

Lemma perm_flat_map_app : forall A B (f g : A -> list B) l,
  Permutation (flat_map (fun x => f x ++ g x) l) (flat_map f l ++ flat_map g l).
Proof.
  induction l as [|x l IH]; [reflexivity|]. cbn [flat_map]. rewrite IH.
  rewrite <- !app_assoc. apply Permutation_app_head. rewrite !app_assoc. apply Permutation_app_tail.
  apply Permutation_app_comm.
Qed.
Lemma perm_swap : forall A B C (f : A -> B -> list C) la lb,
  Permutation (flat_map (fun a => flat_map (f a) lb) la) (flat_map (fun b => flat_map (fun a => f a b) la) lb).
Proof.
  induction la as [|a la IH]; intros lb.
  - cbn [flat_map]. induction lb; [reflexivity|assumption].
  - cbn [flat_map]. rewrite IH. symmetry. apply perm_flat_map_app.
Qed.
Lemma flat_map_single : forall A B (f : A -> B) l, flat_map (fun x => [f x]) l = map f l.
Proof. induction l as [|x l IH]; [reflexivity|]. cbn [flat_map map app]. now rewrite IH. Qed.
Lemma map_flat_map : forall A B C (f : B -> C) (g : A -> list B) l,
  map f (flat_map g l) = flat_map (fun x => map f (g x)) l.
Proof. induction l as [|x l IH]; [reflexivity|]. cbn [flat_map]. now rewrite map_app, IH. Qed.
Lemma filter_as_flat : forall A (q : A -> bool) l, filter q l = flat_map (fun x => if q x then [x] else []) l.
Proof. induction l as [|x l IH]; [reflexivity|]. cbn [filter flat_map]. destruct (q x); cbn [app]; now rewrite IH. Qed.
Lemma Permutation_flat_map : forall A B (f g : A -> list B) l, (forall x, In x l -> Permutation (f x) (g x)) ->
  Permutation (flat_map f l) (flat_map g l).
Proof.
  induction l as [|x l IH]; intros H; [reflexivity|]. cbn [flat_map]. apply Permutation_app; [apply H; now left|].
  apply IH. intros y Hy. apply H. now right.
Qed.

(** The two combinations of a row [a] of [p] and a row [b] of [T] read the same. *)
Variables p T : text.
Hypothesis Hpt : T <> p.

Lemma cval_swap : forall pd qd (x y : option row) c, ctab c <> None ->
  cval pd [(p, x); (T, y)] c = cval qd [(T, y); (p, x)] c.
Proof.
  intros pd qd x y c Hc. unfold cval. destruct (ctab c) as [tb|]; [|congruence]. cbn [assoc].
  destruct (text_eqb tb p) eqn:E1; destruct (text_eqb tb T) eqn:E2; try reflexivity.
  apply text_eqb_spec in E1, E2. congruence.
Qed.
Lemma alltrue_swap : forall pd qd l x y, (forall a, In a l -> qualified a) ->
  alltrue cmpv pd l [(p, x); (T, y)] = alltrue cmpv qd l [(T, y); (p, x)].
Proof.
  intros pd qd l x y Hq. unfold alltrue. apply forallb_ext_in. intros a Ha. specialize (Hq a Ha).
  unfold qualified in Hq.
  assert (Hm : forall cs, incl cs (acols a) -> map (cval pd [(p, x); (T, y)]) cs = map (cval qd [(T, y); (p, x)]) cs).
  { intros cs Hi. apply map_ext_in. intros c Hc. apply cval_swap. apply Hq. now apply Hi. }
  assert (Ho : forall o, incl (ocols o) (acols a) -> oval pd [(p, x); (T, y)] o = oval qd [(T, y); (p, x)] o).
  { intros o Hi. destruct o as [c|cs f]; cbn [oval ocols] in *; [apply cval_swap; apply Hq; apply Hi; now left|].
    now rewrite Hm. }
  destruct a as [o l0 r|l0 f|cs f]; cbn [atrue].
  - rewrite (Ho l0), (Ho r); [reflexivity| |]; cbn [acols]; intros c Hc; apply in_or_app; auto.
  - rewrite (Ho l0); [reflexivity|]. intros c Hc. exact Hc.
  - rewrite (Hm cs); [reflexivity|]. intros c Hc. exact Hc.
Qed.

(** Results are compared through the columns that are read from them. *)
Definition project (dflt : text) (cs : list col) (e : env) : list val := map (cval dflt e) cs.

Lemma right_perm : forall on w cs, (forall a, In a on -> qualified a) -> (forall a, In a w -> qualified a) ->
  (forall c, In c cs -> ctab c <> None) ->
  (forall b a, In b (d T) -> In a (d p) -> alltrue cmpv p w [(T, Some b); (p, None)] = true ->
               alltrue cmpv p w [(T, Some b); (p, Some a)] = true) ->
  Permutation
    (map (project T cs) (filter (alltrue cmpv T w)
       (left_join cmpv T d p (on ++ w) (map (fun r => [(T, Some r)]) (d T)))))
    (map (project p cs) (filter (alltrue cmpv p w)
       (right_join cmpv p d [p] T on (map (fun r => [(p, Some r)]) (d p))))).
Proof.
  intros on w cs Hon Hw Hcs Hnull.
  set (good := fun b a => alltrue cmpv p on [(T, Some b); (p, Some a)]).
  set (wh := fun b a => alltrue cmpv p w [(T, Some b); (p, a)]).
  set (out := fun b a => project p cs [(T, Some b); (p, a)]).
  assert (Hout : forall b a, project T cs [(p, a); (T, Some b)] = out b a).
  { intros b a. unfold out, project. apply map_ext_in. intros c Hc. apply cval_swap. now apply Hcs. }
  assert (Hgood : forall b a, alltrue cmpv T on [(p, Some a); (T, Some b)] = good b a).
  { intros. unfold good. now apply alltrue_swap. }
  assert (Hwh : forall b a, alltrue cmpv T w [(p, a); (T, Some b)] = wh b a).
  { intros. unfold wh. now apply alltrue_swap. }
  (* the rewritten query, row of T by row of T *)
  assert (HL : map (project T cs) (filter (alltrue cmpv T w)
       (left_join cmpv T d p (on ++ w) (map (fun r => [(T, Some r)]) (d T)))) =
    flat_map (fun b => match filter (fun a => good b a && wh b (Some a)) (d p) with
                       | [] => if wh b None then [out b None] else []
                       | m => map (fun a => out b (Some a)) m
                       end) (d T)).
  { unfold left_join. rewrite flat_map_concat_map, map_map, <- flat_map_concat_map.
    rewrite filter_flat_map, map_flat_map. apply flat_map_ext. intros b.
    unfold matches. rewrite filter_map.
    rewrite (filter_ext (fun x => alltrue cmpv T (on ++ w) [(p, Some x); (T, Some b)]) (fun a => good b a && wh b (Some a))).
    2:{ intros a. rewrite alltrue_app. now rewrite Hgood, Hwh. }
    destruct (filter _ (d p)) as [|a m] eqn:E.
    - cbn [map filter]. rewrite Hwh. destruct (wh b None); cbn [map]; [now rewrite Hout|reflexivity].
    - transitivity (map (project T cs) (filter (alltrue cmpv T w) (map (fun r => [(p, Some r); (T, Some b)]) (a :: m)))); [reflexivity|].
      rewrite <- E.
      rewrite filter_map, filter_filter, map_map. 
      rewrite (filter_ext (fun x => (good b x && wh b (Some x)) && alltrue cmpv T w [(p, Some x); (T, Some b)])
                          (fun a => good b a && wh b (Some a))).
      2:{ intros x. rewrite Hwh. now destruct (good b x), (wh b (Some x)). }
      apply map_ext. intros x. apply Hout. }
  rewrite HL. clear HL.
  (* SQL *)
  unfold right_join. rewrite filter_app, map_app.
  assert (HI : Permutation (map (project p cs) (filter (alltrue cmpv p w)
        (inner_join cmpv p d T on (map (fun r => [(p, Some r)]) (d p)))))
     (flat_map (fun b => map (fun a => out b (Some a)) (filter (fun a => good b a && wh b (Some a)) (d p))) (d T))).
  { unfold inner_join. rewrite flat_map_concat_map, map_map, <- flat_map_concat_map.
    rewrite filter_flat_map, map_flat_map.
    rewrite (flat_map_ext _ (fun a => flat_map (fun b => if good b a && wh b (Some a) then [out b (Some a)] else []) (d T))).
    2:{ intros a. unfold matches. rewrite filter_filter, filter_map, map_map, filter_as_flat, flat_map_concat_map.
        rewrite concat_map, map_map, <- flat_map_concat_map. apply flat_map_ext. intros b.
        change (alltrue cmpv p on [(T, Some b); (p, Some a)]) with (good b a).
        change (alltrue cmpv p w [(T, Some b); (p, Some a)]) with (wh b (Some a)).
        now destruct (good b a && wh b (Some a)). }
    rewrite perm_swap. apply Permutation_flat_map. intros b _.
    rewrite filter_as_flat, map_flat_map. erewrite flat_map_ext; [reflexivity|].
    intros a. cbn beta. now destruct (good b a && wh b (Some a)). }
  rewrite HI. clear HI.
  assert (HU : map (project p cs) (filter (alltrue cmpv p w)
        (unmatched cmpv p d [p] T on (map (fun r => [(p, Some r)]) (d p)))) =
     flat_map (fun b => if existsb (good b) (d p) then [] else if wh b None then [out b None] else []) (d T)).
  { unfold unmatched. rewrite filter_map, map_map, filter_filter, filter_as_flat, map_flat_map.
    apply flat_map_ext. intros b.
    assert (existsb (fun e => alltrue cmpv p on ((T, Some b) :: e)) (map (fun r => [(p, Some r)]) (d p)) = existsb (good b) (d p)) as ->.
    { clear. generalize (d p). induction l as [|a l IH]; [reflexivity|]. cbn [map existsb]. rewrite IH. reflexivity. }
    cbn [map]. change (alltrue cmpv p w [(T, Some b); (p, None)]) with (wh b None).
    destruct (existsb (good b) (d p)); cbn [negb andb]; [reflexivity|]. now destruct (wh b None). }
  rewrite HU. clear HU. symmetry. rewrite <- perm_flat_map_app. apply Permutation_flat_map. intros b Hb.
  destruct (filter (fun a => good b a && wh b (Some a)) (d p)) as [|a m] eqn:E.
  - cbn [map app]. destruct (existsb (good b) (d p)) eqn:Ex; [|reflexivity].
    destruct (wh b None) eqn:Ew; [|reflexivity]. exfalso.
    apply existsb_exists in Ex. destruct Ex as (a & Ha & Hg).
    assert (Hin : In a (filter (fun a => good b a && wh b (Some a)) (d p))).
    { apply filter_In. split; [exact Ha|]. rewrite Hg. cbn [andb]. exact (Hnull b a Hb Ha Ew). }
    rewrite E in Hin. destruct Hin.
  - assert (existsb (good b) (d p) = true) as ->; [|now rewrite app_nil_r].
    apply existsb_exists. assert (Hin : In a (filter (fun a => good b a && wh b (Some a)) (d p))) by (rewrite E; now left).
    apply filter_In in Hin. destruct Hin as [Hi Hg]. exists a. split; [exact Hi|]. now apply andb_true_iff in Hg.
Qed.
End Right.

(** ** The selection loop *)
(** A RIGHT join whose ON condition compares two of its own columns, and that is the last RIGHT join
    related to itself, is selected for ever. *)
Lemma select_hangs : forall fuel sel js,
  next_selected sel js = Some sel -> select_loop fuel sel js = None.
Proof. induction fuel as [|f IH]; intros sel js H; [reflexivity|]. cbn [select_loop]. rewrite H. now apply IH. Qed.

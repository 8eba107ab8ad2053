(** Proofs about the join rewrites. *)
From Coq Require Import Permutation.
From Verif Require Import Base PyVal Joins_Syntax Joins_Spec Joins_Model.

(** ** General list facts *)
Lemma filter_filter : forall A (f g : A -> bool) l, filter f (filter g l) = filter (fun x => g x && f x) l.
Proof.
  induction l as [|x l IH]; [reflexivity|]. cbn [filter].
  destruct (g x); cbn [andb]; [cbn [filter]; destruct (f x); now rewrite IH|exact IH].
Qed.
Lemma filter_ext_in' : forall A (f g : A -> bool) l, (forall x, In x l -> f x = g x) -> filter f l = filter g l.
Proof. intros A f g l H. now apply filter_ext_in. Qed.
Lemma filter_flat_map : forall A B (f : A -> list B) p l,
  filter p (flat_map f l) = flat_map (fun x => filter p (f x)) l.
Proof. induction l as [|x l IH]; [reflexivity|]. cbn [flat_map]. now rewrite filter_app, IH. Qed.
Lemma flat_map_ext_in : forall A B (f g : A -> list B) l,
  (forall x, In x l -> f x = g x) -> flat_map f l = flat_map g l.
Proof.
  induction l as [|x l IH]; intros H; [reflexivity|]. cbn [flat_map].
  rewrite (H x) by (now left). rewrite IH; [reflexivity|intros y Hy; apply H; now right].
Qed.
Lemma flat_map_filter : forall A B (f : A -> list B) p l,
  flat_map f (filter p l) = flat_map (fun x => if p x then f x else []) l.
Proof.
  induction l as [|x l IH]; [reflexivity|]. cbn [filter flat_map].
  destruct (p x); cbn [flat_map app]; now rewrite IH.
Qed.
Lemma filter_map : forall A B (f : A -> B) p l, filter p (map f l) = map f (filter (fun x => p (f x)) l).
Proof. induction l as [|x l IH]; [reflexivity|]. cbn [map filter]. destruct (p (f x)); cbn [map]; now rewrite IH. Qed.
Lemma filter_all : forall A (p : A -> bool) l, (forall x, In x l -> p x = true) -> filter p l = l.
Proof.
  induction l as [|x l IH]; intros H; [reflexivity|]. cbn [filter]. rewrite (H x) by (now left).
  f_equal. apply IH. intros y Hy. apply H. now right.
Qed.
Lemma filter_none : forall A (p : A -> bool) l, (forall x, In x l -> p x = false) -> filter p l = [].
Proof.
  induction l as [|x l IH]; intros H; [reflexivity|]. cbn [filter]. rewrite (H x) by (now left).
  apply IH. intros y Hy. apply H. now right.
Qed.
Lemma forallb_ext_in : forall A (f g : A -> bool) l, (forall x, In x l -> f x = g x) -> forallb f l = forallb g l.
Proof.
  induction l as [|x l IH]; intros H; [reflexivity|]. cbn [forallb]. rewrite (H x) by (now left).
  f_equal. apply IH. intros y Hy. apply H. now right.
Qed.

(** ** Columns and conditions in an extended combination *)
Section S.
Variable cmpv : cmp -> val -> val -> bool.
Variable p : text.
Variable d : db.

Definition tabs (e : env) : list text := map fst e.

Lemma get_col_is : forall e c, get_col p e c = cval p e c.
Proof. reflexivity. Qed.
Lemma get_op_is : forall e o, get_op p e o = oval p e o.
Proof. reflexivity. Qed.
Lemma test_atom_is : forall e a, test_atom cmpv p e a = atrue cmpv p e a.
Proof. reflexivity. Qed.

Lemma cval_ext : forall e T x c tb, ctab c = Some tb -> tb <> T -> cval p ((T, x) :: e) c = cval p e c.
Proof.
  intros e T x c tb Hc Hn. unfold cval. rewrite Hc. cbn [assoc].
  destruct (text_eqb tb T) eqn:E; [apply text_eqb_spec in E; contradiction|reflexivity].
Qed.
Lemma cval_own : forall e T r c, ctab c = Some T -> cval p ((T, Some r) :: e) c = rget r (cname c).
Proof.
  intros e T r c Hc. unfold cval. rewrite Hc. cbn [assoc].
  assert (text_eqb T T = true) as -> by (now apply text_eqb_spec). reflexivity.
Qed.
Lemma cval_null : forall e T c, ctab c = Some T -> cval p ((T, None) :: e) c = VNone.
Proof.
  intros e T c Hc. unfold cval. rewrite Hc. cbn [assoc].
  assert (text_eqb T T = true) as -> by (now apply text_eqb_spec). reflexivity.
Qed.

Lemma oval_ext : forall e T x o, (forall c, In c (ocols o) -> exists tb, ctab c = Some tb /\ tb <> T) ->
  oval p ((T, x) :: e) o = oval p e o.
Proof.
  intros e T x o H. destruct o as [c|cs f]; cbn [oval ocols] in *.
  - destruct (H c) as (tb & H1 & H2); [now left|]. eapply cval_ext; eauto.
  - f_equal. apply map_ext_in. intros c Hc. destruct (H c Hc) as (tb & H1 & H2). eapply cval_ext; eauto.
Qed.

(** ** The ON plan *)
Lemma is_tab_true : forall T c, is_tab T c = true <-> ctab c = Some T.
Proof.
  intros T c. unfold is_tab, tab_eqb. destruct (ctab c) as [x|]; [|split; congruence].
  rewrite text_eqb_spec. split; congruence.
Qed.
Lemma is_tab_false : forall T c, is_tab T c = false -> ctab c <> Some T.
Proof. intros T c H E. apply is_tab_true in E. congruence. Qed.

Lemma forallb_snoc : forall A (f : A -> bool) l x, forallb f (l ++ [x]) = forallb f l && f x.
Proof. intros. rewrite forallb_app. cbn [forallb]. now rewrite andb_true_r. Qed.

Lemma andb3 : forall a b c x : bool, a && b && (c && x) = a && b && c && x.
Proof. intros [] [] [] []; reflexivity. Qed.
Lemma andb3m : forall a b c x : bool, a && (b && x) && c = a && b && c && x.
Proof. intros [] [] [] []; reflexivity. Qed.
Lemma andb3l : forall a b c x : bool, (a && x) && b && c = a && b && c && x.
Proof. intros [] [] [] []; reflexivity. Qed.

Lemma parse_on1_sound : forall T pl a pl' e r, eq_symmetric cmpv ->
  on_clean T a -> qualified a -> parse_on1 cmpv T pl a = Ok pl' ->
  joins_row cmpv p T pl' e r = joins_row cmpv p T pl e r && atrue cmpv p ((T, Some r) :: e) a.
Proof.
  intros T pl a pl' e r Hsym Hc Hq H.
  assert (Hav : forall pl'', pl'' = Plan (o_keys pl) (o_query pl) (o_having pl ++ [a]) ->
    joins_row cmpv p T pl'' e r = joins_row cmpv p T pl e r && atrue cmpv p ((T, Some r) :: e) a).
  { intros pl'' ->. unfold joins_row. cbn [o_keys o_query o_having]. rewrite forallb_snoc. rewrite andb3. reflexivity. }
  (* the query made of column [c] of the joined table *)
  assert (Hqu : forall pl'' c (f : val -> bool), ctab c = Some T ->
    pl'' = Plan (o_keys pl) (o_query pl ++ [(cname c, f)]) (o_having pl) ->
    f (cval p ((T, Some r) :: e) c) = atrue cmpv p ((T, Some r) :: e) a ->
    joins_row cmpv p T pl'' e r = joins_row cmpv p T pl e r && atrue cmpv p ((T, Some r) :: e) a).
  { intros pl'' c f Ht -> <-. unfold joins_row. cbn [o_keys o_query o_having]. rewrite forallb_snoc.
    cbn [fst snd]. rewrite andb3m. rewrite cval_own by exact Ht. reflexivity. }
  assert (Hk : forall pl'' c v, ctab c = Some T ->
    (forall c', In c' (ocols v) -> exists tb, ctab c' = Some tb /\ tb <> T) ->
    pl'' = Plan (o_keys pl ++ [(cname c, v)]) (o_query pl) (o_having pl) ->
    cmpv CEq (cval p ((T, Some r) :: e) c) (oval p ((T, Some r) :: e) v) = atrue cmpv p ((T, Some r) :: e) a ->
    joins_row cmpv p T pl'' e r = joins_row cmpv p T pl e r && atrue cmpv p ((T, Some r) :: e) a).
  { intros pl'' c v Ht Hv -> <-. unfold joins_row. cbn [o_keys o_query o_having]. rewrite forallb_snoc.
    cbn [fst snd]. rewrite andb3l. rewrite cval_own by exact Ht. rewrite oval_ext by exact Hv. reflexivity. }
  assert (Hne : forall c', In c' (acols a) -> ctab c' <> Some T -> exists tb, ctab c' = Some tb /\ tb <> T).
  { intros c' Hi Hn. specialize (Hq c' Hi). destruct (ctab c') as [tb|]; [|congruence]. exists tb. split; congruence. }
  destruct a as [o l r0|l f|cs f].
  2:{ cbn [parse_on1] in H. destruct l as [c|cs g]; cbn [col_of] in H.
      - destruct (unqualified c); [discriminate|]. injection H as <-. cbn [on_clean] in Hc.
        eapply Hqu; [exact Hc|reflexivity|]. reflexivity.
      - injection H as <-. now apply Hav. }
  2:{ cbn [parse_on1] in H. injection H as <-. now apply Hav. }
  unfold parse_on1 in H.
  (* the generic, non-key case *)
  assert (Hgen : forall c, col_of l = Some c -> (ocolumns r0 = [] -> ctab c = Some T) ->
     (if unqualified c then Err CompileError
      else match ocolumns r0 with
           | [] => Ok (Plan (o_keys pl) (o_query pl ++ [(cname c, fun v => cmpv o v (no_args r0))]) (o_having pl))
           | _ :: _ => Ok (Plan (o_keys pl) (o_query pl) (o_having pl ++ [ACmp o l r0]))
           end) = Ok pl' ->
     joins_row cmpv p T pl' e r = joins_row cmpv p T pl e r && atrue cmpv p ((T, Some r) :: e) (ACmp o l r0)).
  { intros c Hl Ht H'. destruct (unqualified c); [discriminate|]. destruct l as [c0|]; [|discriminate].
    cbn [col_of] in Hl. injection Hl as ->.
    destruct (ocolumns r0) as [|c1 cs1] eqn:Eo.
    - injection H' as <-. eapply Hqu; [exact (Ht eq_refl)|reflexivity|].
      destruct r0 as [|cs f]; cbn [ocolumns] in Eo; [discriminate|subst cs]. reflexivity.
    - injection H' as <-. now apply Hav. }
  destruct l as [c|cs f]; destruct r0 as [c'|cs' f']; cbn [col_of ocolumns] in *.
  - (* column, column *)
    destruct o;
      [|(destruct (is_tab T c), (is_tab T c'); (apply (Hgen c eq_refl); [discriminate|exact H]))..].
    cbn [on_clean] in Hc.
    destruct (is_tab T c) eqn:E1.
    + apply is_tab_true in E1. destruct (unqualified c); [discriminate|].
      destruct (existsb _ _); [discriminate|]. injection H as <-.
      eapply Hk; [exact E1| |reflexivity|reflexivity].
      intros c1 [<-|[]]. apply Hne; [right; now left|auto].
    + destruct (is_tab T c') eqn:E2.
      * apply is_tab_true in E2. destruct (unqualified c'); [discriminate|].
        destruct (existsb _ _); [discriminate|]. injection H as <-.
        eapply Hk; [exact E2| |reflexivity|].
        { intros c1 [<-|[]]. apply Hne; [now left|]. now apply is_tab_false. }
        cbn [atrue oval]. apply Hsym.
      * apply (Hgen c eq_refl); [discriminate|exact H].
  - (* column, expression *)
    destruct o;
      [|(destruct (is_tab T c); (apply (Hgen c eq_refl); [cbn [on_clean] in Hc; now destruct cs'|exact H]))..].
    cbn [on_clean] in Hc.
    destruct (is_tab T c) eqn:E1.
    + apply is_tab_true in E1. destruct (unqualified c); [discriminate|].
      destruct cs' as [|c1 cs1].
      * injection H as <-. eapply Hqu; [exact E1|reflexivity|reflexivity].
      * destruct (existsb _ _); [discriminate|]. injection H as <-.
        eapply Hk; [exact E1| |reflexivity|reflexivity].
        intros c2 Hc2. apply Hne; [right; exact Hc2|]. now apply Hc.
    + apply (Hgen c eq_refl); [|exact H]. intros ->. exact Hc.
  - (* expression, column *)
    destruct o; [|(destruct (is_tab T c'); injection H as <-; now apply Hav)..].
    cbn [on_clean] in Hc.
    destruct (is_tab T c') eqn:E2; [|injection H as <-; now apply Hav].
    apply is_tab_true in E2. destruct (unqualified c'); [discriminate|].
    destruct cs as [|c1 cs1].
    + injection H as <-. eapply Hqu; [exact E2|reflexivity|]. cbn [atrue oval no_args map]. apply Hsym.
    + destruct (existsb _ _); [discriminate|]. injection H as <-.
      eapply Hk; [exact E2| |reflexivity|].
      { intros c2 Hc2. apply Hne; [cbn [acols ocols]; apply in_or_app; now left|]. now apply Hc. }
      cbn [atrue oval]. apply Hsym.
  - destruct o; injection H as <-; now apply Hav.
Qed.

Lemma parse_on_sound : forall T l pl pl' e r, eq_symmetric cmpv ->
  (forall a, In a l -> on_clean T a /\ qualified a) -> parse_on cmpv T pl l = Ok pl' ->
  joins_row cmpv p T pl' e r = joins_row cmpv p T pl e r && alltrue cmpv p l ((T, Some r) :: e).
Proof.
  intros T l. induction l as [|a l IH]; intros pl pl' e r Hs Hc H.
  - cbn [parse_on] in H. injection H as <-. cbn [alltrue forallb]. unfold alltrue. cbn [forallb]. now rewrite andb_true_r.
  - cbn [parse_on] in H. destruct (parse_on1 cmpv T pl a) as [pl1|] eqn:E; [|discriminate].
    rewrite (IH _ _ e r Hs (fun a' Ha => Hc a' (or_intror Ha)) H).
    destruct (Hc a (or_introl eq_refl)) as [H1 H2].
    rewrite (@parse_on1_sound T pl a pl1 e r Hs H1 H2 E).
    unfold alltrue. cbn [forallb]. now rewrite andb_assoc.
Qed.

Lemma run_join_left : forall T l pl es, eq_symmetric cmpv ->
  (forall a, In a l -> on_clean T a /\ qualified a) -> parse_on cmpv T (Plan [] [] []) l = Ok pl ->
  run_join cmpv d p T pl es = left_join cmpv p d T l es.
Proof.
  intros T l pl es Hs Hc H. unfold run_join, left_join. apply flat_map_ext. intros e.
  unfold matches. rewrite filter_map.
  rewrite (filter_ext (joins_row cmpv p T pl e) (fun r => alltrue cmpv p l ((T, Some r) :: e))).
  2:{ intros r. now rewrite (@parse_on_sound T l _ pl e r Hs Hc H). }
  destruct (filter _ (d T)); reflexivity.
Qed.

Definition lefts (js : list join) (es : list env) : list env :=
  fold_left (fun es j => left_join cmpv p d (jtab j) (jon j) es) js es.

Lemma run_joins_lefts : forall js es res, eq_symmetric cmpv ->
  (forall j a, In j js -> In a (jon j) -> on_clean (jtab j) a /\ qualified a) ->
  run_joins cmpv d p js es = Ok res -> res = lefts js es.
Proof.
  induction js as [|j js IH]; intros es res Hs Hc H; cbn [run_joins] in H.
  - injection H as <-. reflexivity.
  - destruct (join_type_ok j); [|discriminate].
    destruct (parse_on cmpv (jtab j) (Plan [] [] []) (jon j)) as [pl|] eqn:E; [|discriminate].
    rewrite (@run_join_left _ _ _ es Hs (fun a Ha => Hc j a (or_introl eq_refl) Ha) E) in H.
    apply IH in H; [exact H|exact Hs|]. intros j' a Hj Ha. apply Hc; [now right|exact Ha].
Qed.

(** ** INNER JOIN as LEFT JOIN plus IS NOT NULL *)
Definition nn (cs : list col) (e : env) : bool :=
  forallb (fun c => match cval p e c with VNone => false | _ => true end) cs.
Lemma nn_atoms : forall cs e, alltrue cmpv p (map not_null cs) e = nn cs e.
Proof.
  induction cs as [|c cs IH]; intros e; [reflexivity|]. unfold alltrue, nn in *. cbn [map forallb].
  rewrite IH. reflexivity.
Qed.
Lemma nn_app : forall a b e, nn (a ++ b) e = nn a e && nn b e.
Proof. intros. unfold nn. apply forallb_app. Qed.

Lemma nn_ext : forall cs T x e ts, ~ In T ts -> (forall c, In c cs -> exists tb, ctab c = Some tb /\ In tb ts) ->
  nn cs ((T, x) :: e) = nn cs e.
Proof.
  intros cs T x e ts Hn H. unfold nn. apply forallb_ext_in. intros c Hc.
  destruct (H c Hc) as (tb & H1 & H2). rewrite (@cval_ext e T x c tb H1); [reflexivity|]. congruence.
Qed.

(** A join step of either kind. *)
Definition stepk (inner : bool) (T : text) (on : list atom) (es : list env) : list env :=
  if inner then inner_join cmpv p d T on es else left_join cmpv p d T on es.

Lemma matches_shape : forall T on e x, In x (matches cmpv p d T on e) -> exists r, x = (T, Some r) :: e.
Proof.
  intros T on e x H. unfold matches in H. apply filter_In in H. destruct H as [H _].
  apply in_map_iff in H. destruct H as (r & <- & _). now exists r.
Qed.

Lemma step_filter : forall b T on (q : env -> bool) es,
  (forall x e, q ((T, x) :: e) = q e) -> filter q (stepk b T on es) = stepk b T on (filter q es).
Proof.
  intros b T on q es Hq.
  assert (Hm : forall e, filter q (matches cmpv p d T on e) = if q e then matches cmpv p d T on e else []).
  { intros e. destruct (q e) eqn:E.
    - apply filter_all. intros x Hx. apply matches_shape in Hx. destruct Hx as (r & ->). now rewrite Hq.
    - apply filter_none. intros x Hx. apply matches_shape in Hx. destruct Hx as (r & ->). now rewrite Hq. }
  destruct b; unfold stepk, inner_join, left_join; rewrite filter_flat_map, flat_map_filter; apply flat_map_ext;
    intros e; [exact (Hm e)|].
  specialize (Hm e). destruct (matches cmpv p d T on e) as [|m ms].
  - cbn [filter]. rewrite Hq. destruct (q e); reflexivity.
  - exact Hm.
Qed.

Definition fields1 (j : join) : list col :=
  filter (fun c => match ctab c with Some tb => negb (text_eqb tb p) | None => false end) (join_fields p j).
Lemma inner_fields_flat : forall js, inner_fields p js = flat_map fields1 js.
Proof. intros js. unfold inner_fields, fields1. now rewrite filter_flat_map. Qed.

Definition rel (j : join) : bool := tab_mem (Some p) (related (jtab j) [] (jon j)).

Lemma on_value_spec : forall T l r v, on_value T [] l r = Some v ->
  exists c, ctab c = Some T /\ ((l = OCol c /\ v = r) \/ (r = OCol c /\ v = l)).
Proof.
  intros T l r v H. unfold on_value in H.
  destruct l as [c|cs f]; cbn [col_of] in H.
  - destruct (is_tab T c) eqn:E.
    + injection H as <-. exists c. apply is_tab_true in E. auto.
    + destruct r as [c'|]; cbn [col_of] in H; [|discriminate].
      destruct (is_tab T c') eqn:E'; [|discriminate]. injection H as <-. exists c'. apply is_tab_true in E'. auto.
  - destruct r as [c'|]; cbn [col_of] in H; [|discriminate].
    destruct (is_tab T c') eqn:E'; [|discriminate]. injection H as <-. exists c'. apply is_tab_true in E'. auto.
Qed.

Lemma is_on_spec : forall T a, is_on T [] a = true ->
  exists o l r c, a = ACmp o l r /\ ctab c = Some T /\ (l = OCol c \/ r = OCol c).
Proof.
  intros T a H. unfold is_on, classify in H. destruct a as [o l r| |]; [|discriminate..].
  destruct (on_value T [] l r) as [v|] eqn:E; [|discriminate].
  destruct (on_value_spec _ _ _ _ E) as (c & Hc & [[H1 H2]|[H1 H2]]); exists o, l, r, c; auto.
Qed.

Lemma strict_null : forall e o c, strict_operand o -> In c (ocols o) -> cval p e c = VNone -> oval p e o = VNone.
Proof.
  intros e o c Hs Hi Hc. destruct o as [c0|cs f]; cbn [ocols oval strict_operand] in *.
  - destruct Hi as [->|[]]. exact Hc.
  - apply Hs; [now rewrite map_length|]. apply in_map_iff. exists c. auto.
Qed.

Lemma on_atom_nn : forall e o l r c, null_rejecting cmpv -> strict_atom (ACmp o l r) ->
  In c (acols (ACmp o l r)) -> atrue cmpv p e (ACmp o l r) = true -> cval p e c <> VNone.
Proof.
  intros e o l r c Hn [Hl Hr] Hi H E. cbn [atrue acols] in *. apply in_app_or in Hi.
  destruct Hi as [Hi|Hi].
  - rewrite (@strict_null e l c Hl Hi E) in H. destruct (Hn o (oval p e r)) as [H1 _]. congruence.
  - rewrite (@strict_null e r c Hr Hi E) in H. destruct (Hn o (oval p e l)) as [_ H1]. congruence.
Qed.

(** The LEFT JOIN of a related table, followed by IS NOT NULL, is the INNER JOIN. *)
Lemma left_nn_inner : forall j es, null_rejecting cmpv -> jtab j <> p ->
  (forall a, In a (jon j) -> strict_atom a) ->
  filter (nn (fields1 j)) (stepk false (jtab j) (jon j) es) = stepk (rel j) (jtab j) (jon j) es.
Proof.
  intros j es Hn Hp Hst. unfold rel, fields1, join_fields.
  destruct (tab_mem (Some p) (related (jtab j) [] (jon j))) eqn:Er.
  2:{ cbn [flat_map filter nn forallb]. unfold nn. cbn [forallb]. apply filter_all. reflexivity. }
  unfold stepk, left_join, inner_join. rewrite filter_flat_map. apply flat_map_ext. intros e.
  match goal with |- context [nn ?x] => set (cs := x) end.
  assert (Hin : forall c, In c cs -> exists o l r, In (ACmp o l r) (jon j) /\ In c (acols (ACmp o l r))).
  { intros c Hc. unfold cs in Hc. apply filter_In in Hc. destruct Hc as [Hc _]. apply in_flat_map in Hc.
    destruct Hc as (a & Ha & Hc). unfold on_atoms in Ha. apply filter_In in Ha. destruct Ha as [Ha Ho].
    destruct (is_on_spec _ _ Ho) as (o & l & r & c0 & -> & _). exists o, l, r. auto. }
  assert (Hall : filter (nn cs) (matches cmpv p d (jtab j) (jon j) e) = matches cmpv p d (jtab j) (jon j) e).
  { apply filter_all. intros x Hx. unfold matches in Hx. apply filter_In in Hx. destruct Hx as [_ Hx].
    unfold nn. apply forallb_forall. intros c Hc. destruct (Hin c Hc) as (o & l & r & Ha & Hi).
    pose proof (proj1 (forallb_forall _ _) Hx _ Ha) as Ht.
    pose proof (on_atom_nn _ _ _ _ _ Hn (Hst _ Ha) Hi Ht) as Hv. now destruct (cval p x c). }
  destruct (matches cmpv p d (jtab j) (jon j) e) as [|m ms] eqn:Em; [|exact Hall].
  cbn [filter].
  assert (Hf : nn cs ((jtab j, None) :: e) = false).
  { unfold tab_mem in Er. apply existsb_exists in Er. destruct Er as (y & Hy & _).
    unfold related in Hy. apply in_flat_map in Hy. destruct Hy as (a & Ha & Hy).
    assert (Ho : is_on (jtab j) [] a = true) by (unfold is_on; destruct (classify (jtab j) [] a); [reflexivity|destruct Hy..]).
    destruct (is_on_spec _ _ Ho) as (o & l & r & c & -> & Hc & Hlr).
    apply not_true_is_false. intros Hnn. unfold nn in Hnn.
    assert (Hcs : In c cs).
    { unfold cs. apply filter_In. split.
      - apply in_flat_map. exists (ACmp o l r). split; [unfold on_atoms; apply filter_In; auto|].
        cbn [acolumns]. apply in_or_app. destruct Hlr as [->| ->]; [left|right]; now left.
      - rewrite Hc. apply negb_true_iff. apply not_true_is_false. intros E. apply text_eqb_spec in E. contradiction. }
    pose proof (proj1 (forallb_forall _ _) Hnn c Hcs) as Hv. cbn beta in Hv. rewrite cval_null in Hv by exact Hc. discriminate. }
  now rewrite Hf.
Qed.

Definition stepsk (js : list (bool * join)) (es : list env) : list env :=
  fold_left (fun es bj => stepk (fst bj) (jtab (snd bj)) (jon (snd bj)) es) js es.

Lemma fields1_scoped : forall j ts, reads ts (jon j) -> forall c, In c (fields1 j) -> exists tb, ctab c = Some tb /\ In tb ts.
Proof.
  intros j ts Hr c Hc. unfold fields1 in Hc. apply filter_In in Hc. destruct Hc as [Hc _].
  unfold join_fields in Hc. destruct (tab_mem _ _); [|destruct Hc].
  apply in_flat_map in Hc. destruct Hc as (a & Ha & Hc). unfold on_atoms in Ha. apply filter_In in Ha.
  apply (Hr a c); [tauto|]. destruct a; exact Hc.
Qed.

Lemma stepsk_filter : forall js ts (q : env -> bool) es,
  scoped ts (map snd js) -> (forall T x e, ~ In T ts -> q ((T, x) :: e) = q e) ->
  filter q (stepsk js es) = stepsk js (filter q es).
Proof.
  induction js as [|[b j] js IH]; intros ts q es Hs Hq; [reflexivity|].
  cbn [map snd scoped] in Hs. destruct Hs as (H1 & H2 & H3).
  unfold stepsk. cbn [fold_left fst snd]. change (filter q (stepsk js (stepk b (jtab j) (jon j) es)) =
    stepsk js (stepk b (jtab j) (jon j) (filter q es))).
  rewrite (IH (jtab j :: ts)); [|exact H3|].
  - f_equal. apply step_filter. intros x e. now apply Hq.
  - intros T x e HT. apply Hq. intros Hi. apply HT. now right.
Qed.

Lemma lefts_nn : forall js ts es, null_rejecting cmpv -> In p ts -> scoped ts js ->
  (forall j a, In j js -> In a (jon j) -> strict_atom a) ->
  filter (nn (flat_map fields1 js)) (lefts js es) = stepsk (map (fun j => (rel j, j)) js) es.
Proof.
  induction js as [|j js IH]; intros ts es Hn Hp Hs Hst.
  - cbn [flat_map lefts map stepsk fold_left]. apply filter_all. reflexivity.
  - cbn [scoped] in Hs. destruct Hs as (H1 & H2 & H3).
    cbn [flat_map map]. unfold lefts, stepsk. cbn [fold_left fst snd].
    change (filter (nn (fields1 j ++ flat_map fields1 js)) (lefts js (left_join cmpv p d (jtab j) (jon j) es)) =
            stepsk (map (fun j0 => (rel j0, j0)) js) (stepk (rel j) (jtab j) (jon j) es)).
    assert (Hsp : forall l, filter (nn (fields1 j ++ flat_map fields1 js)) l =
                            filter (nn (fields1 j)) (filter (nn (flat_map fields1 js)) l)).
    { intros l. rewrite filter_filter. apply filter_ext. intros e. rewrite nn_app. apply andb_comm. }
    rewrite Hsp.
    rewrite (IH (jtab j :: ts)); [|exact Hn|now right|exact H3|intros j' a Hj; apply Hst; now right].
    rewrite (@stepsk_filter _ (jtab j :: ts)).
    + f_equal. change (left_join cmpv p d (jtab j) (jon j) es) with (stepk false (jtab j) (jon j) es).
      apply left_nn_inner; [exact Hn|intros E; apply H1; rewrite E; exact Hp|]. intros a Ha. apply (Hst j); [now left|exact Ha].
    + rewrite map_map. cbn [snd]. now rewrite map_id.
    + intros T x e HT. eapply nn_ext; [exact HT|]. now apply fields1_scoped.
Qed.

(** The fold of the specification, for joins that are inner or left. *)
Lemma linked_rel : forall j, rel j = linked p j.
Proof.
  intros j. unfold rel, linked, related, tab_mem.
  induction (jon j) as [|a l IH]; [reflexivity|]. cbn [flat_map existsb]. rewrite existsb_app, IH. f_equal. clear IH.
  assert (Hr : forall o, existsb (tab_eqb (Some p)) (map ctab (ocolumns o)) = reads_table p o).
  { intros o. unfold reads_table. change (ocolumns o) with (ocols o). induction (ocols o) as [|c cs IHc]; [reflexivity|].
    cbn [map existsb]. rewrite IHc. f_equal. unfold tab_eqb, tab_is. destruct (ctab c); [apply text_eqb_sym|reflexivity]. }
  destruct a as [o x y| |]; [|reflexivity..]. unfold classify.
  assert (Hc : forall o, column_of (jtab j) o = match col_of o with Some c => is_tab (jtab j) c | None => false end).
  { intros [c|]; [|reflexivity]. cbn [column_of col_of]. unfold tab_is, is_tab, tab_eqb. now destruct (ctab c). }
  assert (Hn : forall o o', column_of (jtab j) o = true -> column_of (jtab j) o' = true ->
            reads_table p o = true -> reads_table p o' = true).
  { intros [c|] [c'|]; try discriminate. cbn [column_of]. unfold reads_table. cbn [ocols existsb]. unfold tab_is.
    destruct (ctab c) as [x0|]; [|discriminate]. destruct (ctab c') as [x1|]; [|discriminate].
    intros E1 E2. apply text_eqb_spec in E1, E2. now subst. }
  assert (Hv : forall v : operand,
    existsb (tab_eqb (Some p)) match match ocolumns v with [] => ClConst | _ :: _ => ClOn (map ctab (ocolumns v)) end with
                               ClOn ts => ts | _ => [] end = reads_table p v).
  { intros v. rewrite <- Hr. now destruct (ocolumns v). }
  assert (He : on_value (jtab j) [] x y =
    if column_of (jtab j) x then Some y else if column_of (jtab j) y then Some x else None).
  { unfold on_value. rewrite !Hc. destruct (col_of x) as [c|]; [destruct (is_tab (jtab j) c)|]; [reflexivity| |];
      destruct (col_of y) as [c'|]; try reflexivity; now destruct (is_tab (jtab j) c'). }
  rewrite He. pose proof (Hv x) as Hx. pose proof (Hv y) as Hy.
  destruct (column_of (jtab j) x) eqn:E1.
  - cbn [andb]. transitivity (reads_table p y); [rewrite <- Hy; now destruct (ocolumns y)|].
    destruct (reads_table p y) eqn:Ry; [reflexivity|]. cbn [orb].
    destruct (column_of (jtab j) y) eqn:E2; [|reflexivity]. cbn [andb].
    destruct (reads_table p x) eqn:Rx; [|reflexivity]. pose proof (Hn x y E1 E2 Rx). congruence.
  - cbn [andb orb]. destruct (column_of (jtab j) y) eqn:E2; [|reflexivity]. cbn [andb]. rewrite <- Hx. now destruct (ocolumns x).
Qed.
Lemma sql_steps : forall js ts es,
  snd (fold_left (sql_join cmpv p d) (map (fun bj => as_inner_if (fst bj) (snd bj)) js) (ts, es)) = stepsk js es.
Proof.
  induction js as [|[b j] js IH]; intros ts es; [reflexivity|].
  cbn [map fold_left fst snd]. unfold sql_join at 2. cbn [as_inner_if jtab jside jon].
  unfold stepsk. cbn [fold_left fst snd]. rewrite IH. unfold stepsk, stepk. now destruct b.
Qed.
End S.

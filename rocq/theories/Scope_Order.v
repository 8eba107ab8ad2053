(** The values of a column do not depend on the order in which independent tables are joined. *)
From Coq Require Import Lia Permutation.
From Verif Require Import Base PyVal Joins_Syntax Joins_Spec Joins_Proofs Scope_Spec.
Set Implicit Arguments.

(** Two environments with the same rows; two lists of them in different orders. *)
Definition env_eq (e e' : env) : Prop := forall n, assoc n e = assoc n e'.
Definition same_rows (l l' : list env) : Prop := exists m, Permutation l m /\ Forall2 env_eq m l'.

Lemma env_eq_refl : forall e, env_eq e e. Proof. intros e n. reflexivity. Qed.
Lemma env_eq_sym : forall e e', env_eq e e' -> env_eq e' e. Proof. intros e e' H n. now rewrite H. Qed.
Lemma env_eq_trans : forall a b c, env_eq a b -> env_eq b c -> env_eq a c. Proof. intros a b c H H' n. now rewrite H. Qed.
Lemma env_eq_cons : forall x e e', env_eq e e' -> env_eq (x :: e) (x :: e').
Proof. intros [k v] e e' H n. cbn [assoc]. now rewrite H. Qed.

Lemma Forall2_perm : forall A B (R : A -> B -> Prop) l l' m, Forall2 R l l' -> Permutation l' m -> exists m', Permutation l m' /\ Forall2 R m' m.
Proof.
  intros A B R l l' m H Hp. revert l H. induction Hp as [|x l1 l2 Hp IH|x y l1|l1 l2 l3 H1 IH1 H2 IH2]; intros l H.
  - inversion H; subst. exists []. split; constructor.
  - inversion H as [|a b la lb Ha Hl]; subst. destruct (IH la Hl) as (m' & P & F). exists (a :: m'). split; [now constructor|now constructor].
  - inversion H as [|a b la lb Ha Hl]; subst. inversion Hl as [|a' b' la' lb' Ha' Hl']; subst. exists (a' :: a :: la'). split; [constructor|]. constructor; [assumption|]. now constructor.
  - destruct (IH1 l H) as (m1 & P1 & F1). destruct (IH2 m1 F1) as (m2 & P2 & F2). exists m2. split; [now transitivity m1|exact F2].
Qed.
Lemma Forall2_trans' : forall A (R : A -> A -> Prop), (forall a b c, R a b -> R b c -> R a c) -> forall x y, Forall2 R x y -> forall z, Forall2 R y z -> Forall2 R x z.
Proof.
  intros A R HR x y H. induction H as [|a b x y Hab H IH]; intros z Hz; inversion Hz; subst; constructor; [eapply HR; eauto|auto].
Qed.
Lemma same_rows_refl : forall l, same_rows l l.
Proof. intros l. exists l. split; [reflexivity|]. induction l; constructor; auto. apply env_eq_refl. Qed.
Lemma same_rows_trans : forall a b c, same_rows a b -> same_rows b c -> same_rows a c.
Proof.
  intros a b c (m & P & F) (m' & P' & F'). destruct (Forall2_perm F P') as (k & Pk & Fk). exists k.
  split; [now transitivity m|]. eapply Forall2_trans'; [apply env_eq_trans|exact Fk|exact F'].
Qed.
Lemma same_rows_app : forall a b a' b', same_rows a a' -> same_rows b b' -> same_rows (a ++ b) (a' ++ b').
Proof.
  intros a b a' b' (m & P & F) (n & Q & G). exists (m ++ n). split; [now apply Permutation_app|now apply Forall2_app].
Qed.
Lemma same_rows_flat : forall (f g : env -> list env) l l', (forall e e', env_eq e e' -> same_rows (f e) (g e')) -> same_rows l l' ->
  same_rows (flat_map f l) (flat_map g l').
Proof.
  intros f g l l' H (m & P & F). apply same_rows_trans with (flat_map f m).
  - exists (flat_map f m). split; [now apply Permutation_flat_map|]. induction (flat_map f m); constructor; auto. apply env_eq_refl.
  - clear P l. induction F as [|a b m l' Hab F IH]; [apply same_rows_refl|]. cbn [flat_map]. apply same_rows_app; auto.
Qed.

Section Joins.
Variable cmpv : cmp -> val -> val -> bool.
Variable p : text.
Variable d : db.

Lemma cval_env_eq : forall e e' c, env_eq e e' -> cval p e c = cval p e' c.
Proof. intros e e' c H. unfold cval. now rewrite H. Qed.
Lemma oval_env_eq : forall e e' o, env_eq e e' -> oval p e o = oval p e' o.
Proof.
  intros e e' o H. destruct o as [c|cs f]; cbn [oval]; [now apply cval_env_eq|]. f_equal. apply map_ext. intros c. now apply cval_env_eq.
Qed.
Lemma atrue_env_eq : forall e e' a, env_eq e e' -> atrue cmpv p e a = atrue cmpv p e' a.
Proof.
  intros e e' a H. destruct a as [o l r|l f|cs f]; cbn [atrue]; rewrite ?(oval_env_eq _ H); [reflexivity..|]. f_equal. apply map_ext. intros c. now apply cval_env_eq.
Qed.
Lemma alltrue_env_eq : forall l e e', env_eq e e' -> alltrue cmpv p l e = alltrue cmpv p l e'.
Proof. intros l e e' H. unfold alltrue. apply forallb_ext_in. intros a _. now apply atrue_env_eq. Qed.

(** The rows of [tb] that a combination gets: the matching ones, or a missing row. *)
Definition partners (tb : text) (on : list atom) (e : env) : list (option row) :=
  match filter (fun r => alltrue cmpv p on ((tb, Some r) :: e)) (d tb) with [] => [None] | rs => map Some rs end.
Lemma left_join_partners : forall tb on es, left_join cmpv p d tb on es = flat_map (fun e => map (fun y => (tb, y) :: e) (partners tb on e)) es.
Proof.
  intros tb on es. unfold left_join, partners, matches. apply flat_map_ext. intros e. rewrite filter_map.
  destruct (filter _ (d tb)) as [|r rs]; [reflexivity|]. cbn [map]. now rewrite map_map.
Qed.
Lemma partners_env_eq : forall tb on e e', env_eq e e' -> partners tb on e = partners tb on e'.
Proof.
  intros tb on e e' H. unfold partners. rewrite (@filter_ext _ _ (fun r => alltrue cmpv p on ((tb, Some r) :: e'))); [reflexivity|].
  intros r. apply alltrue_env_eq. now apply env_eq_cons.
Qed.
Lemma left_join_same : forall tb on l l', same_rows l l' -> same_rows (left_join cmpv p d tb on l) (left_join cmpv p d tb on l').
Proof.
  intros tb on l l' H. rewrite !left_join_partners. apply same_rows_flat; [|exact H]. intros e e' He. rewrite (partners_env_eq tb on He).
  exists (map (fun y => (tb, y) :: e) (partners tb on e')). split; [reflexivity|].
  induction (partners tb on e') as [|y l0 IH]; [constructor|]. cbn [map]. constructor; [now apply env_eq_cons|exact IH].
Qed.

(** A condition that does not read a table. *)
Definition not_read (tb : text) (on : list atom) : Prop := forall a c, In a on -> In c (acols a) -> ctab c <> Some tb /\ ctab c <> None.
Lemma swap_eq : forall a b x y (e : env), a <> b -> env_eq ((a, y) :: (b, x) :: e) ((b, x) :: (a, y) :: e).
Proof.
  intros a b x y e H n. cbn [assoc]. destruct (text_eqb n a) eqn:Ea, (text_eqb n b) eqn:Eb; try reflexivity.
  apply text_eqb_spec in Ea, Eb. congruence.
Qed.
Lemma atrue_unread : forall tb x e a, (forall c, In c (acols a) -> ctab c <> Some tb /\ ctab c <> None) ->
  atrue cmpv p ((tb, x) :: e) a = atrue cmpv p e a.
Proof.
  intros tb x e a H.
  assert (Hc : forall c, In c (acols a) -> cval p ((tb, x) :: e) c = cval p e c).
  { intros c Hc. destruct (H c Hc) as [A B]. destruct (ctab c) as [n|] eqn:E; [|congruence]. apply (cval_ext p e tb x c n E). congruence. }
  assert (Ho : forall o, (forall c, In c (ocols o) -> In c (acols a)) -> oval p ((tb, x) :: e) o = oval p e o).
  { intros o Hi. destruct o as [c|cs f]; cbn [oval ocols] in *; [apply Hc, Hi; now left|]. f_equal. apply map_ext_in. intros c Hc'. apply Hc, Hi, Hc'. }
  destruct a as [o l r|l f|cs f]; cbn [atrue acols] in *.
  - rewrite !Ho; [reflexivity|intros c Hi; rewrite in_app_iff; auto..].
  - now rewrite Ho.
  - f_equal. apply map_ext_in. intros c Hi. now apply Hc.
Qed.
Lemma partners_unread : forall a b on x e, a <> b -> not_read b on -> partners a on ((b, x) :: e) = partners a on e.
Proof.
  intros a b on x e Hne H. unfold partners. rewrite (@filter_ext _ _ (fun r => alltrue cmpv p on ((a, Some r) :: e))); [reflexivity|].
  intros r. rewrite (alltrue_env_eq on (swap_eq x (Some r) e Hne)). unfold alltrue. apply forallb_ext_in. intros at0 Ha. apply atrue_unread. intros c Hc. now apply (H at0).
Qed.

Lemma perm_swap_maps : forall A B C (f : A -> B -> C) (X : list A) (Y : list B),
  Permutation (flat_map (fun x => map (fun y => f x y) Y) X) (flat_map (fun y => map (fun x => f x y) X) Y).
Proof.
  intros A B C f X. induction X as [|x X IH]; intros Y; cbn [flat_map map].
  - induction Y as [|y Y IHY]; [constructor|exact IHY].
  - rewrite IH. clear IH. induction Y as [|y Y IHY]; [constructor|]. cbn [map flat_map app]. constructor. rewrite <- IHY.
    rewrite !app_assoc. apply Permutation_app_tail. apply Permutation_app_comm.
Qed.

Lemma joins_swap : forall a ona b onb es, a <> b -> not_read b ona -> not_read a onb ->
  same_rows (left_join cmpv p d b onb (left_join cmpv p d a ona es)) (left_join cmpv p d a ona (left_join cmpv p d b onb es)).
Proof.
  intros a ona b onb es Hne Ha Hb. induction es as [|e es IH]; [apply same_rows_refl|].
  assert (Hone : forall t on (x : env) l, left_join cmpv p d t on (x :: l) = left_join cmpv p d t on [x] ++ left_join cmpv p d t on l).
  { intros t on x l. unfold left_join. cbn [flat_map]. now rewrite app_nil_r. }
  assert (Happ : forall t on l l', left_join cmpv p d t on (l ++ l') = left_join cmpv p d t on l ++ left_join cmpv p d t on l').
  { intros t on l l'. unfold left_join. apply flat_map_app. }
  rewrite (Hone a ona e es), (Hone b onb e es), !Happ. apply same_rows_app; [|exact IH]. clear IH.
  rewrite !left_join_partners. cbn [flat_map]. rewrite !app_nil_r.
  rewrite !flat_map_concat_map, !map_map, <- !flat_map_concat_map.
  rewrite (flat_map_ext _ (fun y => map (fun x => (b, x) :: (a, y) :: e) (partners b onb e)))
    by (intros y; f_equal; apply partners_unread; [congruence|exact Hb]).
  rewrite (flat_map_ext (fun x => map _ (partners a ona ((b, x) :: e))) (fun x => map (fun y => (a, y) :: (b, x) :: e) (partners a ona e)))
    by (intros x; f_equal; apply partners_unread; [congruence|exact Ha]).
  exists (flat_map (fun x => map (fun y => (b, x) :: (a, y) :: e) (partners a ona e)) (partners b onb e)). split.
  - apply (perm_swap_maps (fun y x => (b, x) :: (a, y) :: e)).
  - induction (partners b onb e) as [|x X IHX]; [constructor|]. cbn [flat_map]. apply Forall2_app; [|exact IHX]. clear IHX.
    induction (partners a ona e) as [|y Y IHY]; [constructor|]. cbn [map]. constructor; [|exact IHY]. apply env_eq_sym. now apply swap_eq.
Qed.

Definition joined (ts : list join) (es : list env) : list env := fold_left (fun es j => left_join cmpv p d (jtab j) (jon j) es) ts es.
Lemma joined_same : forall ts l l', same_rows l l' -> same_rows (joined ts l) (joined ts l').
Proof. induction ts as [|j ts IH]; intros l l' H; [exact H|]. cbn [joined fold_left]. apply IH. now apply left_join_same. Qed.
Lemma joined_app : forall a b es, joined (a ++ b) es = joined b (joined a es).
Proof. intros a b es. unfold joined. apply fold_left_app. Qed.

(** A join that reads none of the joins before it, and is read by none of them, may be done first. *)
Lemma joined_first : forall l1 j es, (forall i, In i l1 -> jtab i <> jtab j /\ not_read (jtab i) (jon j) /\ not_read (jtab j) (jon i)) ->
  same_rows (joined (l1 ++ [j]) es) (joined (j :: l1) es).
Proof.
  induction l1 as [|i l1 IH]; intros j es H; [apply same_rows_refl|]. cbn [app].
  change (joined (i :: l1 ++ [j]) es) with (joined (l1 ++ [j]) (left_join cmpv p d (jtab i) (jon i) es)).
  eapply same_rows_trans; [apply IH; intros k Hk; apply H; now right|].
  change (joined (j :: l1) (left_join cmpv p d (jtab i) (jon i) es)) with (joined l1 (left_join cmpv p d (jtab j) (jon j) (left_join cmpv p d (jtab i) (jon i) es))).
  change (joined (j :: i :: l1) es) with (joined l1 (left_join cmpv p d (jtab i) (jon i) (left_join cmpv p d (jtab j) (jon j) es))).
  apply joined_same. destruct (H i (or_introl eq_refl)) as (A & B & C). now apply joins_swap.
Qed.

(** Each join of [ts] comes after the tables it reads, those of [pre] being there already. *)
Definition ordered (pre : list text) (ts : list join) : Prop :=
  forall l1 j l2, ts = l1 ++ j :: l2 -> forall a c, In a (jon j) -> In c (acols a) -> exists tb, ctab c = Some tb /\ (In tb pre \/ tb = jtab j \/ In tb (map jtab l1)).

Lemma ordered_skip : forall pre j l1 l2, ordered pre (l1 ++ j :: l2) -> (forall a c, In a (jon j) -> In c (acols a) -> exists tb, ctab c = Some tb /\ (In tb pre \/ tb = jtab j)) ->
  ordered (jtab j :: pre) (l1 ++ l2).
Proof.
  intros pre j l1 l2 H Hj k1 k k2 E a c Ha Hc.
  assert (Hcase : (exists m, l1 = k1 ++ k :: m /\ k2 = m ++ l2) \/ (exists m, k1 = l1 ++ m /\ l2 = m ++ k :: k2)).
  { clear - E. revert k1 E. induction l1 as [|y l1 IH]; intros k1 E.
    - right. exists k1. auto.
    - destruct k1 as [|z k1]; cbn [app] in E.
      + injection E as -> <-. left. exists l1. auto.
      + injection E as -> E. destruct (IH k1 E) as [(m & -> & Em)|(m & -> & Em)]; [left|right]; exists m; auto. }
  destruct Hcase as [(m & -> & ->)|(m & -> & ->)].
  - destruct (H k1 k (m ++ j :: l2)) with (a := a) (c := c) as (tb & E' & Hi); [now rewrite <- app_assoc|exact Ha|exact Hc|].
    exists tb. split; [exact E'|]. destruct Hi as [Hi|[Hi|Hi]]; [left; now right|right; now left|right; now right].
  - destruct (H (l1 ++ j :: m) k k2) with (a := a) (c := c) as (tb & E' & Hi); [now rewrite <- app_assoc|exact Ha|exact Hc|].
    exists tb. split; [exact E'|]. destruct Hi as [Hi|[Hi|Hi]]; [left; now right|right; now left|].
    rewrite map_app, in_app_iff in Hi. cbn [map] in Hi. rewrite map_app, in_app_iff. destruct Hi as [Hi|[Hi|Hi]]; auto. left. now left.
Qed.

(** All orders give the same combinations. *)
Lemma joined_orders : forall ts ts' pre es, Permutation ts ts' -> NoDup (map jtab ts) -> (forall j, In j ts -> ~ In (jtab j) pre) ->
  ordered pre ts -> ordered pre ts' -> same_rows (joined ts' es) (joined ts es).
Proof.
  induction ts as [|j ts IH]; intros ts' pre es Hp Nd Hpre Ho Ho'.
  - apply Permutation_nil in Hp. subst ts'. apply same_rows_refl.
  - assert (Hin : In j ts') by (apply (Permutation_in _ Hp); now left). apply in_split in Hin. destruct Hin as (l1 & l2 & ->).
    assert (Hfirst : forall a c, In a (jon j) -> In c (acols a) -> exists tb, ctab c = Some tb /\ (In tb pre \/ tb = jtab j)).
    { intros a c Ha Hc. destruct (Ho [] j ts eq_refl a c Ha Hc) as (tb & E & [Hi|[Hi|[]]]); exists tb; auto. }
    cbn [map] in Nd. apply NoDup_cons_iff in Nd. destruct Nd as [N1 N2].
    assert (Hp' : Permutation ts (l1 ++ l2)) by (apply Permutation_cons_app_inv with j; exact Hp).
    assert (Hname : forall i, In i l1 -> jtab i <> jtab j /\ ~ In (jtab i) pre).
    { intros i Hi. assert (In i ts) by (apply (Permutation_in i (Permutation_sym Hp')); rewrite in_app_iff; auto). split.
      - intros E. apply N1. rewrite <- E. now apply in_map.
      - apply Hpre. now right. }
    assert (Hinner : forall k1 i k2, l1 = k1 ++ i :: k2 -> not_read (jtab j) (jon i)).
    { intros k1 i k2 E a c Ha Hc. destruct (Ho' k1 i (k2 ++ j :: l2)) with (a := a) (c := c) as (tb & E' & Hi); [rewrite E, <- app_assoc; reflexivity|exact Ha|exact Hc|].
      rewrite E'. split; [|discriminate]. intros Ej. injection Ej as ->. destruct Hi as [Hi|[Hi|Hi]].
      - apply (Hpre j); [now left|exact Hi].
      - destruct (Hname i) as [A _]; [rewrite E; apply in_elt|]. congruence.
      - apply in_map_iff in Hi. destruct Hi as (k & Ek & Hk). destruct (Hname k) as [A _]; [rewrite E, in_app_iff; auto|]. congruence. }
    replace (l1 ++ j :: l2) with ((l1 ++ [j]) ++ l2) by (now rewrite <- app_assoc). rewrite joined_app.
    eapply same_rows_trans; [apply joined_same; apply joined_first|].
    + intros i Hi. destruct (Hname i Hi) as [A B]. split; [exact A|]. split.
      * intros a c Ha Hc. destruct (Hfirst a c Ha Hc) as (tb & E & Ht). rewrite E. split; [|discriminate]. intros Ei. injection Ei as ->. destruct Ht; congruence.
      * apply in_split in Hi. destruct Hi as (k1 & k2 & E). now apply (Hinner k1 i k2).
    + rewrite <- joined_app. cbn [app]. change (joined (j :: l1 ++ l2) es) with (joined (l1 ++ l2) (left_join cmpv p d (jtab j) (jon j) es)).
      change (joined (j :: ts) es) with (joined ts (left_join cmpv p d (jtab j) (jon j) es)).
      apply IH with (jtab j :: pre); [exact Hp'|exact N2| | |].
      * intros i Hi [E|E]; [apply N1; rewrite E; now apply in_map|]. apply (Hpre i); [now right|exact E].
      * apply (@ordered_skip pre j [] ts Ho Hfirst).
      * now apply ordered_skip.
Qed.

Lemma same_rows_values : forall l l' o, same_rows l l' -> Permutation (map (fun e => oval p e o) l) (map (fun e => oval p e o) l').
Proof.
  intros l l' o (m & P & F). rewrite (Permutation_map _ P). clear P. induction F as [|a b m l' Hab F IH]; [constructor|]. cbn [map].
  rewrite (oval_env_eq o Hab). now constructor.
Qed.
End Joins.
